(** VTK files. *)
From Verif Require Export Proofs.FilesProofs4.

(** ** Words *)
Lemma split_word a b cur some : ~ In 32 a -> split_str (a ++ 32 :: b) cur some = (cur ++ a) :: split_str b [] false.
Proof.
  revert cur some. induction a as [|c a IH]; intros cur some H; cbn [app split_str]; [rewrite app_nil_r; reflexivity|]. destruct (Z.eqb_spec c 32) as [->|N]; [exfalso; apply H; left; reflexivity|].
  rewrite IH by (intros Q; apply H; right; exact Q). rewrite <- app_assoc. reflexivity.
Qed.
Lemma split_last a cur some : ~ In 32 a -> a <> [] \/ some = true -> split_str a cur some = [cur ++ a].
Proof.
  revert cur some. induction a as [|c a IH]; intros cur some H N; cbn [split_str].
  - destruct N as [N| ->]; [congruence|]. rewrite app_nil_r. reflexivity.
  - destruct (Z.eqb_spec c 32) as [->|Nc]; [exfalso; apply H; left; reflexivity|]. rewrite IH; [rewrite <- app_assoc; reflexivity|intros Q; apply H; right; exact Q|right; reflexivity].
Qed.
Lemma split_first c l cur : exists x y, split_str l (c :: cur) true = (c :: x) :: y.
Proof.
  revert cur. induction l as [|a l IH]; intros cur; cbn [split_str]; [eauto|]. destruct (a =? 32); [eauto|]. change ((c :: cur) ++ [a]) with (c :: (cur ++ [a])). apply IH.
Qed.
Lemma numeral_upper l n : numeral l n -> map c_toupper l = l.
Proof. intros (_ & A & _). induction A as [|c l Hc A IH]; [reflexivity|]. cbn. rewrite IH. f_equal. unfold digit_char in Hc. unfold c_toupper. replace ((97 <=? c) && (c <=? 122)) with false by lia. reflexivity. Qed.
Lemma numeral_nospace l n : numeral l n -> ~ In 32 l.
Proof. intros (_ & A & _) Q. rewrite Forall_forall in A. specialize (A _ Q). unfold digit_char in A. lia. Qed.
Lemma numeral_noline l n : numeral l n -> ~ In 10 l.
Proof. intros (_ & A & _) Q. rewrite Forall_forall in A. specialize (A _ Q). unfold digit_char in A. lia. Qed.

(** ** The header *)
Lemma vtk_step fuel hd hd' pre line r buf : no_newline line -> vtk_line hd (at_ (pre ++ line ++ [10]) r) line = Some (1, hd', at_ (pre ++ line ++ [10]) r, true) ->
  readVTKHeader (S fuel) hd (at_ pre (line ++ 10 :: r)) buf = readVTKHeader fuel hd' (at_ (pre ++ line ++ [10]) r) line.
Proof. intros N E. cbn [readVTKHeader]. rewrite getline_nl by exact N. cbn [is_fail at_]. change (is_fail (at_ _ r)) with false. cbn iota. rewrite E. reflexivity. Qed.

Lemma vtk_dims a0 b0 c0 ty bi s0 q r nw nh nd w h d : numeral nw w -> numeral nh h -> numeral nd d -> w < 2 ^ 31 -> h < 2 ^ 31 -> d < 2 ^ 31 ->
  vtk_line (Vtkh a0 b0 c0 ty bi s0) (at_ q r) (str "DIMENSIONS " ++ nw ++ str " " ++ nh ++ str " " ++ nd) = Some (1, Vtkh w h d ty bi (Z.of_nat (length q)), at_ q r, true).
Proof.
  intros Nw Nh Nd Hw Hh Hd. pose proof (numeral_pos _ _ Nw). pose proof (numeral_pos _ _ Nh). pose proof (numeral_pos _ _ Nd). unfold vtk_line. rewrite !map_app, (numeral_upper _ _ Nw), (numeral_upper _ _ Nh), (numeral_upper _ _ Nd).
  assert (E : split_str (map c_toupper (str "DIMENSIONS ") ++ nw ++ map c_toupper (str " ") ++ nh ++ map c_toupper (str " ") ++ nd) [] false = [str "DIMENSIONS"; nw; nh; nd]).
  { change (map c_toupper (str "DIMENSIONS ") ++ ?x) with (str "DIMENSIONS" ++ 32 :: x). rewrite split_word by (vm_compute; intuition congruence). change (map c_toupper (str " ")) with [32]. cbn [app].
    rewrite split_word by (eapply numeral_nospace; eassumption). rewrite split_word by (eapply numeral_nospace; eassumption). rewrite split_last; [reflexivity|eapply numeral_nospace; eassumption|left; apply Nd]. }
  rewrite E. change (rd [?a; ?b; ?c; ?e] 0) with (Some a). cbn [option_bind]. change (znth 0 (str "DIMENSIONS") 0) with 68. cbn [is_digit]. change (_ || _) with false at 1. cbn iota.
  unfold is_tellg. rewrite at_good. change (bytes_eqb (str "DIMENSIONS") (str "DATASET")) with false. change (bytes_eqb (str "DIMENSIONS") (str "ASCII")) with false. change (bytes_eqb (str "DIMENSIONS") (str "BINARY")) with false.
  change (bytes_eqb (str "DIMENSIONS") (str "DIMENSIONS")) with true. cbn iota. change (rd [?a; ?b; ?c; ?e] 1) with (Some b). change (rd [?a; ?b; ?c; ?e] 2) with (Some c). change (rd [?a; ?b; ?c; ?e] 3) with (Some e). cbn [option_bind].
  rewrite <- (app_nil_r nw), <- (app_nil_r nh), <- (app_nil_r nd), (atoi_numeral nw w), (atoi_numeral nh h), (atoi_numeral nd d) by (try discriminate; assumption). cbn [option_bind]. rewrite !to_uint_id by lia. reflexivity.
Qed.
Lemma vtk_points a0 b0 c0 ty bi s0 q r nn n : numeral nn n -> n < 2 ^ 31 ->
  vtk_line (Vtkh a0 b0 c0 ty bi s0) (at_ q r) (str "POINT_DATA " ++ nn) = Some (1, Vtkh a0 b0 c0 ty bi (Z.of_nat (length q)), at_ q r, true).
Proof.
  intros Nn Hn. unfold vtk_line. rewrite !map_app, (numeral_upper _ _ Nn). change (map c_toupper (str "POINT_DATA ") ++ ?x) with (str "POINT_DATA" ++ 32 :: x). rewrite split_word by (vm_compute; intuition congruence). rewrite split_last; [|eapply numeral_nospace; eassumption|left; apply Nn].
  cbn [app]. change (rd (?a :: ?l) 0) with (Some a). cbn [option_bind]. change (znth 0 (str "POINT_DATA") 0) with 80. change (_ || _) with false at 1. cbn iota.
  unfold is_tellg. rewrite at_good. change (bytes_eqb (str "POINT_DATA") (str "DATASET")) with false. change (bytes_eqb (str "POINT_DATA") (str "ASCII")) with false. change (bytes_eqb (str "POINT_DATA") (str "BINARY")) with false.
  change (bytes_eqb (str "POINT_DATA") (str "DIMENSIONS")) with false. change (bytes_eqb (str "POINT_DATA") (str "POINT_DATA")) with true. cbn iota. change (rd (?a :: ?b :: ?l) 1) with (Some b). cbn [option_bind].
  rewrite <- (app_nil_r nn), (atoi_numeral nn n) by (try discriminate; assumption). reflexivity.
Qed.

(** The lines that do not depend on the image. *)
Lemma vl_version a b c ty bi s q r : vtk_line (Vtkh a b c ty bi s) (at_ q r) (str "# vtk DataFile Version 3.0") = Some (1, Vtkh a b c ty bi (Z.of_nat (length q)), at_ q r, true).
Proof. reflexivity. Qed.
Lemma vl_title a b c ty bi s q r : vtk_line (Vtkh a b c ty bi s) (at_ q r) (str "vtk output") = Some (1, Vtkh a b c ty bi (Z.of_nat (length q)), at_ q r, true).
Proof. reflexivity. Qed.
Lemma vl_binary a b c ty bi s q r : vtk_line (Vtkh a b c ty bi s) (at_ q r) (str "BINARY") = Some (1, Vtkh a b c ty true (Z.of_nat (length q)), at_ q r, true).
Proof. reflexivity. Qed.
Lemma vl_dataset a b c ty bi s q r : vtk_line (Vtkh a b c ty bi s) (at_ q r) (str "DATASET STRUCTURED_POINTS") = Some (1, Vtkh a b c ty bi (Z.of_nat (length q)), at_ q r, true).
Proof. reflexivity. Qed.
Lemma vl_spacing a b c ty bi s q r : vtk_line (Vtkh a b c ty bi s) (at_ q r) (str "SPACING 1.0 1.0 1.0") = Some (1, Vtkh a b c ty bi (Z.of_nat (length q)), at_ q r, true).
Proof. reflexivity. Qed.
Lemma vl_origin a b c ty bi s q r : vtk_line (Vtkh a b c ty bi s) (at_ q r) (str "ORIGIN 0 0 0") = Some (1, Vtkh a b c ty bi (Z.of_nat (length q)), at_ q r, true).
Proof. reflexivity. Qed.
Lemma vl_scalars a b c ty bi s q r t : t = UINT8 \/ t = UINT16 -> vtk_line (Vtkh a b c ty bi s) (at_ q r) (str "SCALARS scalars " ++ vtk_type t) = Some (1, Vtkh a b c (Some t) bi (Z.of_nat (length q)), at_ q r, true).
Proof. intros [-> | ->]; reflexivity. Qed.
Lemma vl_table a b c ty bi s q r : vtk_line (Vtkh a b c ty bi s) (at_ q r) (str "LOOKUP_TABLE default") = Some (1, Vtkh a b c ty bi (Z.of_nat (length q)), at_ q r, true).
Proof. reflexivity. Qed.
Lemma vl_unnamed a b c ty bi s q r : vtk_line (Vtkh a b c ty bi s) (at_ q r) (str "SCALARS scalars ") = None.
Proof. reflexivity. Qed.

(** The first byte of the pixels: neither a letter, nor #, nor an end of line. *)
Definition plain_byte (b : Z) : Prop := b <> 10 /\ b <> 35 /\ ~ (65 <= b <= 90) /\ ~ (97 <= b <= 122).
Lemma vtk_stop hd st b l : plain_byte b -> vtk_line hd st (b :: l) = Some (1, hd, st, false).
Proof.
  intros (N1 & N2 & N3 & N4). unfold vtk_line. cbn [map]. assert (E : c_toupper b = b) by (unfold c_toupper; replace ((97 <=? b) && (b <=? 122)) with false by lia; reflexivity). rewrite E. cbn [split_str]. destruct (Z.eqb_spec b 32) as [->|N].
  - reflexivity.
  - cbn [app]. destruct (split_first b (map c_toupper l) []) as (x & y & ->). change (rd ((b :: x) :: y) 0) with (Some (b :: x)). cbn [option_bind]. change (znth 0 (b :: x) 0) with b.
    unfold c_isalnum. destruct (is_digit b); [reflexivity|]. replace ((65 <=? b) && (b <=? 90)) with false by lia. replace ((97 <=? b) && (b <=? 122)) with false by lia. cbn [orb negb andb]. destruct (Z.eqb_spec b 35) as [Q|Q]; [contradiction|]. rewrite orb_true_r. reflexivity.
Qed.

Definition known (t : ity) : Prop := t = UINT8 \/ t = UINT16.
Lemma vtk_header_pre fuel t w h d R : known t -> 0 <= w < 2 ^ 31 -> 0 <= h < 2 ^ 31 -> 0 <= d < 2 ^ 31 -> 0 <= w * h * d < 2 ^ 31 -> (10 <= fuel)%nat ->
  readVTKHeader fuel (Vtkh 0 0 0 (Some UINT8) false 0) (is_open (vtk_header t w h d ++ R)) [] =
  readVTKHeader (fuel - 10) (Vtkh w h d (Some t) true (Z.of_nat (length (vtk_header t w h d)))) (at_ (vtk_header t w h d) R) (str "LOOKUP_TABLE default").
Proof.
  intros K Hw Hh Hd Hn F. rewrite at_open. do 10 (destruct fuel as [|fuel]; [lia|]). clear F. replace (S (S (S (S (S (S (S (S (S (S fuel))))))))) - 10)%nat with fuel by lia. set (Hdr := vtk_header t w h d) at 2 3.
  pose proof (dec_numeral w ltac:(lia)) as Nw. pose proof (dec_numeral h ltac:(lia)) as Nh. pose proof (dec_numeral d ltac:(lia)) as Nd. pose proof (dec_numeral (w * h * d) ltac:(lia)) as Nn.
  unfold vtk_header. rewrite <- !app_assoc. repeat match goal with |- context [[10] ++ ?x] => change ([10] ++ x) with (10 :: x) end.
  erewrite vtk_step; [|vm_compute; intuition congruence|apply vl_version].
  erewrite vtk_step; [|vm_compute; intuition congruence|apply vl_title].
  erewrite vtk_step; [|vm_compute; intuition congruence|apply vl_binary].
  erewrite vtk_step; [|vm_compute; intuition congruence|apply vl_dataset].
  match goal with |- context [readVTKHeader _ _ (at_ ?p (str "DIMENSIONS " ++ dec w ++ str " " ++ dec h ++ str " " ++ dec d ++ ?x))] => replace (str "DIMENSIONS " ++ dec w ++ str " " ++ dec h ++ str " " ++ dec d ++ x) with ((str "DIMENSIONS " ++ dec w ++ str " " ++ dec h ++ str " " ++ dec d) ++ x) by (rewrite <- !app_assoc; reflexivity) end.
  erewrite vtk_step; [| |apply (vtk_dims _ _ _ _ _ _ _ _ _ _ _ w h d); try assumption; lia].
  2:{ intros Q. rewrite !in_app_iff in Q. destruct Q as [Q|[Q|[Q|[Q|[Q|Q]]]]]; first [exact (numeral_noline _ _ Nw Q) | exact (numeral_noline _ _ Nh Q) | exact (numeral_noline _ _ Nd Q) | exact (numeral_noline _ _ Nn Q) | revert Q; vm_compute; intuition congruence]. }
  cbn [vk_type vk_bin].
  erewrite vtk_step; [|vm_compute; intuition congruence|apply vl_spacing].
  erewrite vtk_step; [|vm_compute; intuition congruence|apply vl_origin].
  match goal with |- context [readVTKHeader _ _ (at_ ?p (str "POINT_DATA " ++ ?a ++ ?x))] => replace (str "POINT_DATA " ++ a ++ x) with ((str "POINT_DATA " ++ a) ++ x) by (rewrite <- !app_assoc; reflexivity) end.
  erewrite vtk_step; [| |apply (vtk_points _ _ _ _ _ _ _ _ _ (w * h * d)); try assumption; lia].
  2:{ intros Q. rewrite !in_app_iff in Q. destruct Q as [Q|Q]; first [exact (numeral_noline _ _ Nw Q) | exact (numeral_noline _ _ Nh Q) | exact (numeral_noline _ _ Nd Q) | exact (numeral_noline _ _ Nn Q) | revert Q; vm_compute; intuition congruence]. }
  match goal with |- context [readVTKHeader _ _ (at_ ?p (str "SCALARS scalars " ++ ?a ++ ?x))] => replace (str "SCALARS scalars " ++ a ++ x) with ((str "SCALARS scalars " ++ a) ++ x) by (rewrite <- !app_assoc; reflexivity) end.
  erewrite vtk_step; [|destruct K; subst t; vm_compute; intuition congruence|apply vl_scalars; exact K].
  erewrite vtk_step; [|vm_compute; intuition congruence|apply vl_table].
  match goal with |- context [readVTKHeader _ _ (at_ ?p R)] => assert (EH : p = Hdr) end.
  { unfold Hdr, vtk_header. cbn [app]. repeat (rewrite <- !app_assoc; cbn [app]). reflexivity. }
  rewrite EH. reflexivity.
Qed.

(** The other types have no name: the third word of the line is not there. *)
Lemma vtk_header_unnamed fuel t w h d R : ~ known t -> 0 <= w < 2 ^ 31 -> 0 <= h < 2 ^ 31 -> 0 <= d < 2 ^ 31 -> 0 <= w * h * d < 2 ^ 31 -> (10 <= fuel)%nat ->
  readVTKHeader fuel (Vtkh 0 0 0 (Some UINT8) false 0) (is_open (vtk_header t w h d ++ R)) [] = None.
Proof.
  intros K Hw Hh Hd Hn F. rewrite at_open. do 10 (destruct fuel as [|fuel]; [lia|]). clear F.
  pose proof (dec_numeral w ltac:(lia)) as Nw. pose proof (dec_numeral h ltac:(lia)) as Nh. pose proof (dec_numeral d ltac:(lia)) as Nd. pose proof (dec_numeral (w * h * d) ltac:(lia)) as Nn.
  unfold vtk_header. rewrite <- !app_assoc. repeat match goal with |- context [[10] ++ ?x] => change ([10] ++ x) with (10 :: x) end.
  erewrite vtk_step; [|vm_compute; intuition congruence|apply vl_version].
  erewrite vtk_step; [|vm_compute; intuition congruence|apply vl_title].
  erewrite vtk_step; [|vm_compute; intuition congruence|apply vl_binary].
  erewrite vtk_step; [|vm_compute; intuition congruence|apply vl_dataset].
  match goal with |- context [readVTKHeader _ _ (at_ ?p (str "DIMENSIONS " ++ dec w ++ str " " ++ dec h ++ str " " ++ dec d ++ ?x))] => replace (str "DIMENSIONS " ++ dec w ++ str " " ++ dec h ++ str " " ++ dec d ++ x) with ((str "DIMENSIONS " ++ dec w ++ str " " ++ dec h ++ str " " ++ dec d) ++ x) by (rewrite <- !app_assoc; reflexivity) end.
  erewrite vtk_step; [| |apply (vtk_dims _ _ _ _ _ _ _ _ _ _ _ w h d); try assumption; lia].
  2:{ intros Q. rewrite !in_app_iff in Q. destruct Q as [Q|[Q|[Q|[Q|[Q|Q]]]]]; first [exact (numeral_noline _ _ Nw Q) | exact (numeral_noline _ _ Nh Q) | exact (numeral_noline _ _ Nd Q) | exact (numeral_noline _ _ Nn Q) | revert Q; vm_compute; intuition congruence]. }
  cbn [vk_type vk_bin].
  erewrite vtk_step; [|vm_compute; intuition congruence|apply vl_spacing].
  erewrite vtk_step; [|vm_compute; intuition congruence|apply vl_origin].
  match goal with |- context [readVTKHeader _ _ (at_ ?p (str "POINT_DATA " ++ ?a ++ ?x))] => replace (str "POINT_DATA " ++ a ++ x) with ((str "POINT_DATA " ++ a) ++ x) by (rewrite <- !app_assoc; reflexivity) end.
  erewrite vtk_step; [| |apply (vtk_points _ _ _ _ _ _ _ _ _ (w * h * d)); try assumption; lia].
  2:{ intros Q. rewrite !in_app_iff in Q. destruct Q as [Q|Q]; first [exact (numeral_noline _ _ Nw Q) | exact (numeral_noline _ _ Nh Q) | exact (numeral_noline _ _ Nd Q) | exact (numeral_noline _ _ Nn Q) | revert Q; vm_compute; intuition congruence]. }
  replace (vtk_type t) with (@nil Z) by (unfold known in K; destruct t; try reflexivity; exfalso; apply K; auto). cbn [readVTKHeader app]. rewrite getline_nl by (vm_compute; intuition congruence). change (is_fail (at_ _ _)) with false. cbn iota. change (str "SCALARS scalars " ++ []) with (str "SCALARS scalars "). rewrite vl_unnamed. reflexivity.
Qed.

Lemma vtk_header_ok fuel t w h d b D : known t -> 0 <= w < 2 ^ 31 -> 0 <= h < 2 ^ 31 -> 0 <= d < 2 ^ 31 -> 0 <= w * h * d < 2 ^ 31 -> plain_byte b -> (11 <= fuel)%nat ->
  exists p e, readVTKHeader fuel (Vtkh 0 0 0 (Some UINT8) false 0) (is_open (vtk_header t w h d ++ b :: D)) [] =
    Some (Some (1, Vtkh w h d (Some t) true (Z.of_nat (length (vtk_header t w h d))), IS (vtk_header t w h d ++ b :: D) p e false)).
Proof.
  intros K Hw Hh Hd Hn Hb F. rewrite vtk_header_pre by (assumption || lia). replace (fuel - 10)%nat with (S (fuel - 11)) by lia. cbn [readVTKHeader].
  destruct (getline_some (vtk_header t w h d) b D (str "LOOKUP_TABLE default") ltac:(apply Hb)) as (p & e & line & ->). cbn [is_fail]. rewrite vtk_stop by exact Hb. cbn [option_bind]. eexists p, e. reflexivity.
Qed.
Lemma vtk_header_newline fuel t w h d D : known t -> 0 <= w < 2 ^ 31 -> 0 <= h < 2 ^ 31 -> 0 <= d < 2 ^ 31 -> 0 <= w * h * d < 2 ^ 31 -> (11 <= fuel)%nat ->
  readVTKHeader fuel (Vtkh 0 0 0 (Some UINT8) false 0) (is_open (vtk_header t w h d ++ 10 :: D)) [] = None.
Proof.
  intros K Hw Hh Hd Hn F. rewrite vtk_header_pre by (assumption || lia). replace (fuel - 10)%nat with (S (fuel - 11)) by lia. cbn [readVTKHeader].
  change (10 :: D) with ([] ++ 10 :: D). rewrite getline_nl by (intros []). reflexivity.
Qed.

(** ** The pixels *)
Definition venc (t : ity) (v : Z) : list Z := rev (encode t v).
Lemma vtk_value_ok t pre v r old : inty t v -> vtk_value t (at_ pre (venc t v ++ r)) old = Some (v, at_ (pre ++ venc t v) r).
Proof.
  intros H. unfold vtk_value. assert (L : length (venc t v) = tbytes t) by (unfold venc; rewrite rev_length; apply encode_length). rewrite read_at by (rewrite L; reflexivity). rewrite L, Nat.eqb_refl. unfold venc. rewrite rev_involutive, decode_encode by exact H. reflexivity.
Qed.
Definition vtk_put (t : ity) (w h z y : Z) : istream * list Z -> Z -> option (istream * list Z) := fun '(st, px) x =>
  let o := (z * h + y) * w + x in
  option_bind (rd px o) (fun old => option_bind (vtk_value t st old) (fun '(v, st) => option_bind (wr px o v) (fun px => Some (st, px)))).

(** [px'] is [px] with the values of [P] from [a] to [b]. *)
Definition updated (P : list Z) (a b : Z) (px px' : list Z) : Prop := length px' = length px /\ forall o, rd px' o = if (a <=? o) && (o <? b) then rd P o else rd px o.
Lemma updated_none P a px : updated P a a px px.
Proof. split; [reflexivity|]. intros o. replace (_ && _) with false by lia. reflexivity. Qed.
Lemma updated_up P a b c px p1 p2 : a <= b <= c -> updated P a b px p1 -> updated P b c p1 p2 -> updated P a c px p2.
Proof.
  intros H (L1 & R1) (L2 & R2). split; [congruence|]. intros o. rewrite R2, R1. destruct ((b <=? o) && (o <? c)) eqn:Q; [replace (_ && _) with true by lia; reflexivity|].
  destruct ((a <=? o) && (o <? b)) eqn:Q2; [replace (_ && _) with true by lia; reflexivity|replace (_ && _) with false by lia; reflexivity].
Qed.
Lemma updated_down P a b c px p1 p2 : a <= b <= c -> updated P b c px p1 -> updated P a b p1 p2 -> updated P a c px p2.
Proof.
  intros H (L1 & R1) (L2 & R2). split; [congruence|]. intros o. rewrite R2, R1. destruct ((a <=? o) && (o <? b)) eqn:Q; [replace (_ && _) with true by lia; reflexivity|].
  destruct ((b <=? o) && (o <? c)) eqn:Q2; [replace (_ && _) with true by lia; reflexivity|replace (_ && _) with false by lia; reflexivity].
Qed.

Section Pixels.
  Variables (t : ity) (w h d : Z) (P : list Z).
  Hypothesis Hw : 0 <= w.
  Hypothesis Hh : 0 <= h.
  Hypothesis Hd : 0 <= d.
  Hypothesis LP : Z.of_nat (length P) = w * h * d.
  Hypothesis TP : Forall (inty t) P.

  Lemma vtk_vals z y r : forall l i pre px, 0 <= i -> 0 <= (z * h + y) * w -> Forall (inty t) l -> (z * h + y) * w + i + Z.of_nat (length l) <= Z.of_nat (length px) ->
    (forall k, 0 <= k < Z.of_nat (length l) -> rd P ((z * h + y) * w + i + k) = rd l k) ->
    exists pre' px', fold_opt (vtk_put t w h z y) (map (fun k => i + k) (zseq (Z.of_nat (length l)))) (at_ pre (flat_map (venc t) l ++ r), px) = Some (at_ pre' r, px') /\
      updated P ((z * h + y) * w + i) ((z * h + y) * w + i + Z.of_nat (length l)) px px'.
  Proof using.
    induction l as [|v l IH]; intros i pre px Hi Ho A Hl Hp; [exists pre, px; split; [reflexivity|cbn [length]; rewrite Z.add_0_r; apply updated_none]|]. inversion A as [|? ? A1 A2]; subst. cbn [length flat_map] in *. rewrite zseq_cons. cbn [map fold_opt]. rewrite Z.add_0_r, <- app_assoc.
    unfold vtk_put at 1. destruct (rd_in_range px ((z * h + y) * w + i) ltac:(lia)) as (old & ->). cbn [option_bind]. rewrite vtk_value_ok by exact A1. cbn [option_bind]. destruct (wr_Some px ((z * h + y) * w + i) v ltac:(lia)) as (p1 & E1). rewrite E1. cbn [option_bind].
    rewrite map_map. erewrite (map_ext _ (fun k => (i + 1) + k)) by (intros; lia). pose proof (wr_length _ _ _ _ E1) as L1. destruct (IH (i + 1) (pre ++ venc t v) p1 ltac:(lia) Ho A2 ltac:(lia)) as (pre' & p2 & E & U).
    { intros k Hk. replace ((z * h + y) * w + (i + 1) + k) with ((z * h + y) * w + i + (k + 1)) by lia. rewrite Hp by lia. unfold rd. replace (0 <=? k + 1) with true by lia. replace (0 <=? k) with true by lia. replace (Z.to_nat (k + 1)) with (S (Z.to_nat k)) by lia. reflexivity. }
    exists pre', p2. split; [exact E|]. eapply updated_up with (b := (z * h + y) * w + (i + 1)); [lia| |replace ((z * h + y) * w + i + Z.of_nat (S (length l))) with ((z * h + y) * w + (i + 1) + Z.of_nat (length l)) by lia; exact U].
    split; [exact L1|]. intros o. rewrite (rd_wr _ _ _ _ _ E1). destruct (Z.eqb_spec ((z * h + y) * w + i) o) as [<-|N]; [replace (_ && _) with true by lia|replace (_ && _) with false by lia; reflexivity].
    specialize (Hp 0 ltac:(lia)). rewrite Z.add_0_r in Hp. rewrite Hp. reflexivity.
  Qed.

  Definition vrow (z y : Z) : list Z := flat_map (venc t) (firstn (Z.to_nat w) (skipn (Z.to_nat ((z * h + y) * w)) P)).
  Lemma vtk_row z y r pre px : 0 <= z < d -> 0 <= y < h -> length px = length P ->
    exists pre' px', fold_opt (vtk_put t w h z y) (zseq w) (at_ pre (vrow z y ++ r), px) = Some (at_ pre' r, px') /\ updated P ((z * h + y) * w) ((z * h + y) * w + w) px px'.
  Proof using Hw Hh Hd LP TP.
    intros Hz Hy Lx. assert (B1 : 0 <= (z * h + y) * w) by nia. assert (B2 : (z * h + y + 1) * w <= w * h * d) by (assert (z * h + y + 1 <= h * d) by nia; nia).
    set (l := firstn (Z.to_nat w) (skipn (Z.to_nat ((z * h + y) * w)) P)). assert (Ll : Z.of_nat (length l) = w) by (unfold l; rewrite firstn_length, skipn_length; lia).
    assert (A : Forall (inty t) l) by (rewrite Forall_forall in *; intros v Hv; apply TP; unfold l in Hv; rewrite <- (firstn_skipn (Z.to_nat ((z * h + y) * w)) P), in_app_iff; right; rewrite <- (firstn_skipn (Z.to_nat w) (skipn _ _)), in_app_iff; left; exact Hv).
    destruct (vtk_vals z y r l 0 pre px ltac:(lia) B1 A ltac:(lia)) as (pre' & px' & E & U).
    { intros k Hk. rewrite Z.add_0_r. unfold l. rewrite rd_firstn by lia. replace (k <? _) with true by lia. rewrite rd_skipn by lia. f_equal. lia. }
    rewrite Ll in *. rewrite Z.add_0_r in U. erewrite (map_ext _ (fun k => k)), map_id in E by (intros; lia). exists pre', px'. split; [exact E|exact U].
  Qed.
  Lemma vtk_rows z r : 0 <= z < d -> forall m, 0 <= m -> m <= h -> forall pre px, length px = length P ->
    exists pre' px', fold_opt (fun s y => fold_opt (vtk_put t w h z y) (zseq w) s) (rev (zseq m)) (at_ pre (flat_map (vrow z) (rev (zseq m)) ++ r), px) = Some (at_ pre' r, px') /\ updated P (z * h * w) ((z * h + m) * w) px px'.
  Proof using Hw Hh Hd LP TP.
    intros Hz m Hm. pattern m. apply natlike_ind; [| |exact Hm].
    - intros _ pre px L. exists pre, px. split; [reflexivity|]. rewrite Z.add_0_r. apply updated_none.
    - clear m Hm. unfold Z.succ. intros m Hm IH Hl pre px L. rewrite zseq_succ, rev_app_distr by lia. cbn [rev app fold_opt flat_map]. rewrite <- app_assoc.
      destruct (vtk_row z m (flat_map (vrow z) (rev (zseq m)) ++ r) pre px Hz ltac:(lia) L) as (p1 & x1 & -> & U1). destruct (IH ltac:(lia) p1 x1 ltac:(destruct U1; congruence)) as (p2 & x2 & -> & U2).
      exists p2, x2. split; [reflexivity|]. replace ((z * h + (m + 1)) * w) with ((z * h + m) * w + w) by lia. eapply updated_down; [|exact U1|exact U2]. nia.
  Qed.
  Lemma vtk_slices r : forall n, 0 <= n -> n <= d -> forall pre px, length px = length P ->
    exists pre' px', fold_opt (fun s z => fold_opt (fun s y => fold_opt (vtk_put t w h z y) (zseq w) s) (rev (zseq h)) s) (zseq n) (at_ pre (flat_map (fun z => flat_map (vrow z) (rev (zseq h))) (zseq n) ++ r), px) = Some (at_ pre' r, px') /\
      updated P 0 (n * h * w) px px'.
  Proof using Hw Hh Hd LP TP.
    intros n Hn. revert r. pattern n. apply natlike_ind; [| |exact Hn].
    - intros r _ pre px L. exists pre, px. split; [reflexivity|]. apply updated_none.
    - clear n Hn. unfold Z.succ. intros n Hn IH r Hl pre px L. rewrite zseq_succ by lia. rewrite flat_map_app, <- app_assoc. cbn [flat_map]. rewrite app_nil_r.
      destruct (IH (flat_map (vrow n) (rev (zseq h)) ++ r) ltac:(lia) pre px L) as (p1 & x1 & E1 & U1). rewrite fold_opt_app, E1. cbn [option_bind fold_opt].
      destruct (vtk_rows n r ltac:(lia) h Hh ltac:(lia) p1 x1 ltac:(destruct U1; congruence)) as (p2 & x2 & -> & U2). exists p2, x2. split; [reflexivity|]. replace ((n + 1) * h * w) with ((n * h + h) * w) by lia. eapply updated_up; [|exact U1|exact U2]. nia.
  Qed.
End Pixels.

Lemma vtk_write_split t im : vtk_write t im = vtk_header t (width im) (height im) (depth im) ++ flat_map (fun z => flat_map (vrow t (width im) (height im) (pixs im) z) (rev (zseq (height im)))) (zseq (depth im)).
Proof. reflexivity. Qed.

(** The first byte of the pixels in the file. *)
Lemma vtk_first t im b : wf_img im -> pixel_is im 0 (height im - 1) 0 b -> exists D, flat_map (fun z => flat_map (vrow t (width im) (height im) (pixs im) z) (rev (zseq (height im)))) (zseq (depth im)) = venc t b ++ D.
Proof.
  intros W (Hin & R). unfold width, height, depth in *. unfold inside in Hin. cbn [dw dh dd] in *. destruct Hin as (H1 & H2 & H3). replace (zseq (dd (sz im))) with (0 :: map (fun k => k + 1) (zseq (dd (sz im) - 1))).
  2:{ replace (dd (sz im)) with (Z.of_nat (S (Z.to_nat (dd (sz im) - 1)))) at 2 by lia. rewrite zseq_cons. rewrite Z2Nat.id by lia. reflexivity. }
  cbn [flat_map]. assert (Er : rev (zseq (dh (sz im))) = dh (sz im) - 1 :: rev (zseq (dh (sz im) - 1))) by (replace (dh (sz im)) with (dh (sz im) - 1 + 1) at 1 by lia; rewrite zseq_succ by lia; rewrite rev_app_distr; reflexivity).
  rewrite Er. cbn [flat_map]. unfold vrow at 1.
  set (o := (0 * dh (sz im) + (dh (sz im) - 1)) * dw (sz im)). assert (Ro : rd (pixs im) o = Some b) by (rewrite <- R; f_equal; unfold o, voxel_offset; lia). pose proof (rd_Some_range _ _ _ Ro).
  assert (Sk : skipn (Z.to_nat o) (pixs im) = b :: skipn (S (Z.to_nat o)) (pixs im)).
  { unfold rd in Ro. replace (0 <=? o) with true in Ro by lia. revert Ro. generalize (Z.to_nat o). generalize (pixs im). clear. intros l n. revert l. induction n as [|n IH]; intros [|x l] E; cbn in E; try discriminate; [injection E as ->; reflexivity|]. cbn [skipn]. apply IH. exact E. }
  rewrite Sk. assert (Ew : Z.to_nat (dw (sz im)) = S (Z.to_nat (dw (sz im) - 1))) by lia. rewrite Ew. cbn [firstn flat_map]. rewrite <- !app_assoc. eexists. reflexivity.
Qed.
Lemma vtk_roundtrip fuel t mem im image v0 b : known t -> wf_img im -> wf_img image -> typed_img t im -> width im * height im * depth im < 2 ^ 31 -> pixel_is im 0 (height im - 1) 0 v0 -> rd (venc t v0) 0 = Some b -> plain_byte b -> (11 <= fuel)%nat ->
  vtk_read fuel t mem (vtk_write t im) image = Some (Some (1, im)).
Proof.
  intros K W Wi T Hn Px0 Rb Hb F. destruct (vtk_first t im v0 W Px0) as (D & ED). assert (W0 := W). destruct W0 as ((W1 & W2 & W3) & Wl). destruct Px0 as ((H1 & H2 & H3) & _). unfold width, height, depth in *.
  set (w := dw (sz im)) in *. set (h := dh (sz im)) in *. set (d := dd (sz im)) in *. assert (w <= w * h * d /\ h <= w * h * d /\ d <= w * h * d) as (B1 & B2 & B3) by (assert (1 <= w * h) by nia; assert (1 <= h * d) by nia; assert (1 <= w * d) by nia; repeat split; nia).
  rewrite vtk_write_split. unfold width, height, depth. fold w h d. set (data := flat_map _ _) in *. assert (exists D', data = b :: D') as (D' & ED').
  { rewrite ED. destruct (venc t v0) as [|x l]; [pose proof (rd_Some_range _ _ _ Rb); cbn in *; lia|]. injection Rb as <-. eexists. reflexivity. }
  unfold vtk_read. rewrite ED'. destruct (vtk_header_ok fuel t w h d b D' K ltac:(lia) ltac:(lia) ltac:(lia) ltac:(lia) Hb F) as (p & e & ->). cbn [fuel_bind Z.eqb Pos.eqb negb vk_type vk_w vk_h vk_d vk_bin vk_start].
  replace (match t with UINT8 => match t with UINT8 => false | _ => true end | UINT16 => match t with UINT16 => false | _ => true end | INT16 => match t with INT16 => false | _ => true end | _ => false end) with false by (destruct K; subst t; reflexivity).
  rewrite !to_int_id by lia. destruct (set_size_wf mem image w h d Wi ltac:(lia) ltac:(lia) ltac:(lia)) as (im2 & -> & (_ & Wi2) & Si). rewrite Si in Wi2. cbn [dw dh dd] in Wi2. rewrite seek_at by reflexivity. rewrite <- ED'.
  destruct (vtk_slices t w h d (pixs im) ltac:(lia) ltac:(lia) ltac:(lia) Wl T [] d ltac:(lia) ltac:(lia) (vtk_header t w h d) (pixs im2) ltac:(lia)) as (p' & px & E & (L & R)). rewrite app_nil_r in E. fold data in E. unfold vtk_put in E. rewrite E. cbn [option_bind].
  f_equal. f_equal. f_equal. rewrite Si. assert (px = pixs im) as ->. { apply list_ext_rd; [lia|]. intros i Hi. rewrite R. replace (_ && _) with true by lia. reflexivity. }
  unfold w, h, d. destruct im as ((a0, b0, c0), q0). reflexivity.
Qed.
