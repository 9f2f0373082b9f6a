(** Morard's algorithm on one line. *)
From Verif Require Import Spec.FastLineSpec Proofs.ImageFacts Proofs.PreludeFacts Proofs.LoopFacts.

Section Line.
Variables (P : Z -> Z) (n L len vmin : Z) (f : Z -> Z) (out0 : list Z).
Hypothesis (HP : forall i, 0 <= i < n -> 0 <= P i < len) (HI : forall i j, 0 <= i < n -> 0 <= j < n -> P i = P j -> i = j) (HL : 1 <= L)
  (HV : forall i, 0 <= i < n -> vmin <= f i <= vmin + 255).

Definition nd (st : list mnode) (j : Z) : mnode := znth (Mn 0 false 0) st j.
Definition idx_ok (idx : list Z) (wp : Z) : Prop := forall i, 0 <= i < wp -> rd idx i = Some (P i).

Lemma rd_nd st j : Z.of_nat (length st) = 256 -> 0 <= j < 256 -> rd st j = Some (nd st j).
Proof using HP HI HL HV. intros HS Hj. destruct (rd_in_range st j ltac:(lia)) as (x & E). unfold nd. rewrite (znth_rd _ _ _ _ E). exact E. Qed.

Lemma paint_ok idx v : forall k a out, 0 <= a -> a + Z.of_nat k <= n -> idx_ok idx (a + Z.of_nat k) -> Z.of_nat (length out) = len -> exists out', paint idx a (a + Z.of_nat k) v out = Some out' /\ Z.of_nat (length out') = len /\
  (forall i, a <= i < a + Z.of_nat k -> rd out' (P i) = Some v) /\ forall o, (forall i, a <= i < a + Z.of_nat k -> P i <> o) -> rd out' o = rd out o.
Proof using HP HI HL HV.
  induction k as [|k IH]; intros a out Ha Hk HX HO.
  - exists out. unfold paint. replace (a + Z.of_nat 0 - a) with 0 by lia. split; [reflexivity|]. split; [exact HO|]. split; [intros; lia|reflexivity].
  - unfold paint. rewrite zrange_cons by lia. cbn [fold_opt]. rewrite (HX a) by lia. cbn [option_bind]. destruct (wr_Some out (P a) v ltac:(rewrite HO; apply HP; lia)) as (out1 & W). rewrite W.
    pose proof (wr_length _ _ _ _ W) as L1. replace (a + Z.of_nat (S k)) with (a + 1 + Z.of_nat k) in * by lia.
    destruct (IH (a + 1) out1 ltac:(lia) ltac:(lia) HX ltac:(lia)) as (out' & E & L' & H1 & H2). exists out'. unfold paint in E. replace (a + 1 + Z.of_nat k - a - 1) with (a + 1 + Z.of_nat k - (a + 1)) by lia. split; [exact E|]. split; [exact L'|]. split.
    + intros i Hi. destruct (Z.eq_dec i a) as [->|Hne]; [|apply H1; lia]. rewrite H2 by (intros i Hi' C; apply HI in C; lia). rewrite (rd_wr _ _ _ _ _ W), Z.eqb_refl. reflexivity.
    + intros o Ho. rewrite H2 by (intros i Hi; apply Ho; lia). rewrite (rd_wr _ _ _ _ _ W). replace (P a =? o) with false; [reflexivity|]. symmetry. apply Z.eqb_neq. apply Ho. lia.
Qed.
Lemma paint_ok' idx v a b out : 0 <= a <= b -> b <= n -> idx_ok idx b -> Z.of_nat (length out) = len -> exists out', paint idx a b v out = Some out' /\ Z.of_nat (length out') = len /\
  (forall i, a <= i < b -> rd out' (P i) = Some v) /\ forall o, (forall i, a <= i < b -> P i <> o) -> rd out' o = rd out o.
Proof using HP HI HL HV. intros Ha Hb HX HO. destruct (paint_ok idx v (Z.to_nat (b - a)) a out) as (out' & H); rewrite ?Z2Nat.id by lia; try lia; replace (a + (b - a)) with b by lia; try assumption. rewrite Z2Nat.id in H by lia. replace (a + (b - a)) with b in H by lia. exists out'. exact H. Qed.

Notation start st j := (mn_start (nd st j)).
Notation value st j := (mn_value (nd st j)).
Notation passed st j := (mn_passed (nd st j)).

(** Where node [j] of [ss] ends. *)
Definition node_end (st : list mnode) (ss wp j : Z) : Z := if j + 1 <? ss then start st (j + 1) else wp.

(** After [wp] pixels, with [ss] nodes: [g] is [f] with the peaks that cannot hold a run of [L] pixels cut. *)
Record J (ss : Z) (st : list mnode) (out : list Z) (wp : Z) (g : Z -> Z) : Prop := {
  j_ss : 1 <= ss <= 256;
  j_len : Z.of_nat (length st) = 256;
  j_pos : 0 <= start st 0;
  j_inc : forall j, 0 <= j -> j + 1 < ss -> start st j < start st (j + 1) /\ value st j < value st (j + 1);
  j_top : start st (ss - 1) < wp;
  j_pas : forall j, 0 < j < ss -> passed st j = false;
  j_cur : forall j i, 0 <= j < ss -> start st j <= i < node_end st ss wp j -> g i = value st j;
  j_fut : forall i, wp <= i < n -> g i = f i;
  j_le : forall i, 0 <= i < n -> g i <= f i;
  j_win : forall a v, 0 <= a -> a + L <= n -> (forall i, a <= i < a + L -> v <= f i) -> forall i, a <= i < a + L -> v <= g i;
  j_done : forall i, 0 <= i < start st 0 -> rd out (P i) = Some (g i) /\ exists a, 0 <= a <= i /\ i < a + L <= wp /\ forall j, a <= j < a + L -> g i <= g j;
  j_p : passed st 0 = true -> exists a, 0 <= a /\ a + L <= start st 0 /\ forall i, a <= i < start st 0 -> value st 0 <= g i;
  j_np : passed st 0 = false -> start st 0 = 0 /\ (exists i, 0 <= i < wp /\ f i = value st 0) /\ forall i, 0 <= i < wp -> value st 0 <= f i;
  j_vmin : vmin <= value st 0;
  j_out : Z.of_nat (length out) = len;
  j_unt : forall o, (forall i, 0 <= i < wp -> P i <> o) -> rd out o = rd out0 o }.

Lemma J_mono ss st out wp g : J ss st out wp g -> forall j d, 0 <= j -> 0 <= d -> j + d < ss -> start st j + d <= start st (j + d) /\ value st j + d <= value st (j + d).
Proof using HP HI HL HV.
  intros HJ j d Hj Hd. pattern d. apply natlike_ind; [| |exact Hd].
  - intros _. rewrite !Z.add_0_r. lia.
  - intros x Hx IH Hk. specialize (IH ltac:(lia)). destruct (j_inc _ _ _ _ _ HJ (j + x) ltac:(lia) ltac:(lia)) as (A & B). replace (j + Z.succ x) with (j + x + 1) by lia. lia.
Qed.
Lemma J_le ss st out wp g : J ss st out wp g -> forall j k, 0 <= j <= k -> k < ss -> start st j <= start st k /\ value st j <= value st k.
Proof using HP HI HL HV. intros HJ j k Hjk Hk. pose proof (J_mono ss st out wp g HJ j (k - j) ltac:(lia) ltac:(lia) ltac:(lia)) as H. replace (j + (k - j)) with k in H by lia. lia. Qed.
Lemma J_find ss st out wp g : J ss st out wp g -> forall i, start st 0 <= i < wp -> exists j, 0 <= j < ss /\ start st j <= i < node_end st ss wp j.
Proof using HP HI HL HV.
  intros HJ i Hi. pose proof (j_ss _ _ _ _ _ HJ) as Hss.
  assert (forall k, 0 <= k -> k < ss -> start st k <= i -> exists j, 0 <= j < ss /\ start st j <= i < node_end st ss wp j) as H.
  { intros k Hk. assert (forall m, 0 <= m -> forall k, 0 <= k -> k < ss -> ss - k <= m -> start st k <= i -> exists j, 0 <= j < ss /\ start st j <= i < node_end st ss wp j) as H.
    { intros m Hm. pattern m. apply natlike_ind; [intros; lia| |exact Hm]. intros x Hx IH k' Hk' Hks Hm' Hs. destruct (Z.lt_ge_cases i (node_end st ss wp k')) as [C|C]; [exists k'; lia|].
      unfold node_end in C. destruct (Z.ltb_spec (k' + 1) ss) as [D|D]; [|lia]. apply (IH (k' + 1)); lia. }
    intros Hks Hs. apply (H ss ltac:(lia) k); lia. }
  apply (H 0); lia.
Qed.
Lemma J_above ss st out wp g : J ss st out wp g -> forall j i, 0 <= j < ss -> start st j <= i < wp -> value st j <= g i.
Proof using HP HI HL HV.
  intros HJ j i Hj Hi. pose proof (J_le _ _ _ _ _ HJ 0 j ltac:(lia) ltac:(lia)) as (A & _). destruct (J_find _ _ _ _ _ HJ i ltac:(lia)) as (k & Hk & Hki). rewrite (j_cur _ _ _ _ _ HJ k i Hk Hki).
  destruct (Z.le_gt_cases j k) as [C|C]; [apply (J_le _ _ _ _ _ HJ); lia|]. unfold node_end in Hki. replace (k + 1 <? ss) with true in Hki by (symmetry; apply Z.ltb_lt; lia). pose proof (J_le _ _ _ _ _ HJ (k + 1) j ltac:(lia) ltac:(lia)). lia.
Qed.

(** Painting the nodes gives [g]. *)
Lemma paint_below_ok ss st out wp g idx : J ss st out wp g -> wp <= n -> idx_ok idx wp -> forall k, 0 <= k < ss -> exists out',
  paint_below idx st (Z.to_nat k) out = Some out' /\ Z.of_nat (length out') = len /\ (forall i, start st 0 <= i < start st k -> rd out' (P i) = Some (g i)) /\
  forall o, (forall i, start st 0 <= i < start st k -> P i <> o) -> rd out' o = rd out o.
Proof using HP HI HL HV.
  intros HJ Hwp HX k (Hk0 & Hk). pose proof (j_ss _ _ _ _ _ HJ) as Hss. revert Hk. pattern k. apply natlike_ind; [| |exact Hk0].
  - intros _. exists out. split; [reflexivity|]. split; [apply (j_out _ _ _ _ _ HJ)|]. split; [intros; lia|reflexivity].
  - clear k Hk0. intros k Hk0 IH Hk. destruct (IH ltac:(lia)) as (out1 & E1 & L1 & H1 & H2). unfold paint_below in *. replace (Z.of_nat (Z.to_nat (Z.succ k))) with (k + 1) by lia. rewrite <- zrange_0_zseq, zrange_snoc, zrange_0_zseq, fold_opt_app by lia.
    rewrite Z2Nat.id in E1 by lia. rewrite E1. cbn [option_bind fold_opt]. rewrite Z.add_0_l. rewrite (rd_nd st k), (rd_nd st (k + 1)) by (try apply (j_len _ _ _ _ _ HJ); lia). cbn [option_bind].
    destruct (J_le _ _ _ _ _ HJ 0 k ltac:(lia) ltac:(lia)) as (A & _). destruct (j_inc _ _ _ _ _ HJ k Hk0 ltac:(lia)) as (B & _). destruct (J_le _ _ _ _ _ HJ (k + 1) (ss - 1) ltac:(lia) ltac:(lia)) as (C & _). pose proof (j_top _ _ _ _ _ HJ) as D. pose proof (j_pos _ _ _ _ _ HJ) as E0.
    destruct (paint_ok' idx (value st k) (start st k) (start st (k + 1)) out1 ltac:(lia) ltac:(lia) ltac:(intros i Hi; apply HX; lia) L1) as (out' & -> & L' & P1 & P2). exists out'. unfold Z.succ. split; [reflexivity|]. split; [exact L'|]. split.
    + intros i Hi. destruct (Z.lt_ge_cases i (start st k)) as [F|F].
      * rewrite P2; [apply H1; lia|]. intros i' Hi' EE. apply HI in EE; lia.
      * rewrite P1 by lia. f_equal. symmetry. apply (j_cur _ _ _ _ _ HJ k i ltac:(lia)). unfold node_end. replace (k + 1 <? ss) with true by (symmetry; apply Z.ltb_lt; lia). lia.
    + intros o Ho. rewrite P2 by (intros i Hi; apply Ho; lia). apply H2. intros i Hi. apply Ho. lia.
Qed.
Lemma flush_ok ss st out wp g idx : J ss st out wp g -> wp <= n -> idx_ok idx wp -> exists out1 out',
  paint_below idx st (Z.to_nat (ss - 1)) out = Some out1 /\ paint idx (start st (ss - 1)) wp (value st (ss - 1)) out1 = Some out' /\ Z.of_nat (length out') = len /\
  (forall i, start st 0 <= i < wp -> rd out' (P i) = Some (g i)) /\ forall o, (forall i, start st 0 <= i < wp -> P i <> o) -> rd out' o = rd out o.
Proof using HP HI HL HV.
  intros HJ Hwp HX. pose proof (j_ss _ _ _ _ _ HJ) as Hss. destruct (paint_below_ok _ _ _ _ _ _ HJ Hwp HX (ss - 1) ltac:(lia)) as (out1 & E1 & L1 & H1 & H2). exists out1.
  destruct (J_le _ _ _ _ _ HJ 0 (ss - 1) ltac:(lia) ltac:(lia)) as (A & _). pose proof (j_top _ _ _ _ _ HJ) as D. pose proof (j_pos _ _ _ _ _ HJ) as E0.
  destruct (paint_ok' idx (value st (ss - 1)) (start st (ss - 1)) wp out1 ltac:(lia) ltac:(lia) HX L1) as (out' & E2 & L' & P1 & P2). exists out'. split; [exact E1|]. split; [exact E2|]. split; [exact L'|]. split.
  - intros i Hi. destruct (Z.lt_ge_cases i (start st (ss - 1))) as [F|F].
    + rewrite P2; [apply H1; lia|]. intros i' Hi' EE. apply HI in EE; lia.
    + rewrite P1 by lia. f_equal. symmetry. apply (j_cur _ _ _ _ _ HJ (ss - 1) i ltac:(lia)). unfold node_end. replace (ss - 1 + 1 <? ss) with false by (symmetry; apply Z.ltb_ge; lia). lia.
  - intros o Ho. rewrite P2 by (intros i Hi; apply Ho; lia). apply H2. intros i Hi. apply Ho. lia.
Qed.

(** If the last node holds a run of [L] pixels, or is the end of a run that was found before, every pixel keeps its level. *)
Lemma runs_ok ss st out wp g : J ss st out wp g -> (passed st (ss - 1) = true \/ L <= wp - start st (ss - 1)) ->
  forall i, 0 <= i < wp -> exists a, 0 <= a <= i /\ i < a + L <= wp /\ forall j, a <= j < a + L -> g i <= g j.
Proof using HP HI HL HV.
  intros HJ HC i Hi. pose proof (j_ss _ _ _ _ _ HJ) as Hss. pose proof (j_pos _ _ _ _ _ HJ) as E0. destruct (Z.lt_ge_cases i (start st 0)) as [F|F]; [apply (j_done _ _ _ _ _ HJ i ltac:(lia))|].
  destruct HC as [HC|HC].
  - assert (ss = 1) as ->. { destruct (Z.eq_dec ss 1) as [e|e]; [exact e|]. rewrite (j_pas _ _ _ _ _ HJ (ss - 1)) in HC by lia. discriminate. }
    change (1 - 1) with 0 in HC. destruct (j_p _ _ _ _ _ HJ HC) as (a0 & A1 & A2 & A3). assert (forall j, start st 0 <= j < wp -> g j = value st 0) as HG by (intros j Hj; apply (j_cur _ _ _ _ _ HJ 0); [lia|exact Hj]).
    exists (Z.min i (wp - L)). split; [lia|]. split; [lia|]. intros j Hj. rewrite (HG i) by lia. destruct (Z.lt_ge_cases j (start st 0)); [apply A3; lia|rewrite HG by lia; lia].
  - destruct (J_find _ _ _ _ _ HJ i ltac:(lia)) as (k & Hk & Hki). rewrite (j_cur _ _ _ _ _ HJ k i Hk Hki). destruct (J_le _ _ _ _ _ HJ k (ss - 1) ltac:(lia) ltac:(lia)) as (A & _). destruct (J_le _ _ _ _ _ HJ 0 k ltac:(lia) ltac:(lia)) as (B & _).
    assert (i < wp). { unfold node_end in Hki. lia. } exists (Z.min i (wp - L)). split; [lia|]. split; [lia|]. intros j Hj. apply (J_above _ _ _ _ _ HJ); lia.
Qed.

(** Cutting a peak too short for a run. *)
Lemma cut_ok (g : Z -> Z) s wp w : 0 <= s < wp -> wp - s < L -> (forall i, s <= i < wp -> w <= g i) -> (s = 0 \/ g (s - 1) <= w) -> (wp = n \/ g wp <= w) -> wp <= n ->
  (forall a v, 0 <= a -> a + L <= n -> (forall i, a <= i < a + L -> v <= f i) -> forall i, a <= i < a + L -> v <= g i) ->
  forall a v, 0 <= a -> a + L <= n -> (forall i, a <= i < a + L -> v <= f i) -> forall i, a <= i < a + L -> v <= (if (s <=? i) && (i <? wp) then w else g i).
Proof using HP HI HL HV.
  intros Hs Hlen Hw Hl Hr Hwp HW a v Ha1 Ha2 Hv i Hi. pose proof (HW a v Ha1 Ha2 Hv) as HG. destruct ((s <=? i) && (i <? wp)) eqn:E; [|apply HG; exact Hi].
  apply andb_prop in E. destruct E as (E1 & E2). apply Z.leb_le in E1. apply Z.ltb_lt in E2. destruct (Z.lt_ge_cases a s) as [C|C].
  - destruct Hl as [Hl|Hl]; [lia|]. pose proof (HG (s - 1) ltac:(lia)). lia.
  - destruct Hr as [Hr|Hr]; [lia|]. pose proof (HG wp ltac:(lia)). lia.
Qed.

Lemma nd_wr st j x st' : wr st j x = Some st' -> forall k, nd st' k = if j =? k then x else nd st k.
Proof using HP HI HL HV. intros W k. unfold nd, znth. rewrite (rd_wr _ _ _ _ _ W). destruct (j =? k); reflexivity. Qed.

(** The next pixel is at the level of the last node. *)
Lemma J_same ss st out wp g : J ss st out wp g -> wp < n -> f wp = value st (ss - 1) -> J ss st out (wp + 1) g.
Proof using HP HI HL HV.
  intros HJ Hwp HF. pose proof (j_ss _ _ _ _ _ HJ) as Hss. constructor; try apply HJ.
  - pose proof (j_top _ _ _ _ _ HJ). lia.
  - intros j i Hj Hi. destruct (Z.eq_dec i wp) as [->|Hne].
    + rewrite (j_fut _ _ _ _ _ HJ wp ltac:(lia)). rewrite HF. replace j with (ss - 1); [reflexivity|]. destruct (Z.eq_dec j (ss - 1)) as [e|e]; [symmetry; exact e|]. unfold node_end in Hi. replace (j + 1 <? ss) with true in Hi by (symmetry; apply Z.ltb_lt; lia).
      destruct (J_le _ _ _ _ _ HJ (j + 1) (ss - 1) ltac:(lia) ltac:(lia)) as (A & _). pose proof (j_top _ _ _ _ _ HJ). lia.
    + apply (j_cur _ _ _ _ _ HJ j i Hj). unfold node_end in *. destruct (j + 1 <? ss); lia.
  - intros i Hi. apply (j_fut _ _ _ _ _ HJ). lia.
  - intros i Hi. destruct (j_done _ _ _ _ _ HJ i Hi) as (A & a & B & C & D). split; [exact A|]. exists a. split; [exact B|]. split; [lia|exact D].
  - intros HPa. destruct (j_np _ _ _ _ _ HJ HPa) as (A & (i & B1 & B2) & C). split; [exact A|]. split; [exists i; split; [lia|exact B2]|]. intros k Hk. destruct (Z.eq_dec k wp) as [->|Hne]; [|apply C; lia].
    rewrite HF. apply (J_le _ _ _ _ _ HJ); lia.
  - intros o Ho. apply (j_unt _ _ _ _ _ HJ). intros i Hi. apply Ho. lia.
Qed.

Lemma J_push ss st out wp g st' : J ss st out wp g -> wp < n -> value st (ss - 1) < f wp -> ss < 256 -> wr st ss (Mn wp false (f wp)) = Some st' -> J (ss + 1) st' out (wp + 1) g.
Proof using HP HI HL HV.
  intros HJ Hwp HF Hs W. pose proof (j_ss _ _ _ _ _ HJ) as Hss. pose proof (nd_wr _ _ _ _ W) as HN. assert (forall j, 0 <= j < ss -> nd st' j = nd st j) as HO by (intros j Hj; rewrite HN; replace (ss =? j) with false by (symmetry; apply Z.eqb_neq; lia); reflexivity).
  assert (nd st' ss = Mn wp false (f wp)) as HT by (rewrite HN, Z.eqb_refl; reflexivity). pose proof (j_top _ _ _ _ _ HJ) as Ht. constructor; rewrite ?(HO 0) by lia; try apply HJ; try lia.
  - rewrite (wr_length _ _ _ _ W). apply (j_len _ _ _ _ _ HJ).
  - intros j Hj Hj1. destruct (Z.eq_dec (j + 1) ss) as [e|e]; [|rewrite !HO by lia; apply (j_inc _ _ _ _ _ HJ); lia]. rewrite e, HT, (HO j) by lia. cbn [mn_start mn_value]. replace j with (ss - 1) by lia. lia.
  - replace (ss + 1 - 1) with ss by lia. rewrite HT. cbn [mn_start]. lia.
  - intros j Hj. destruct (Z.eq_dec j ss) as [->|e]; [rewrite HT; reflexivity|]. rewrite HO by lia. apply (j_pas _ _ _ _ _ HJ). lia.
  - intros j i Hj Hi. unfold node_end in Hi. destruct (Z.eq_dec j ss) as [->|e].
    + rewrite HT in *. cbn [mn_start mn_value] in *. replace (ss + 1 <? ss + 1) with false in Hi by (symmetry; apply Z.ltb_ge; lia). replace i with wp by lia. apply (j_fut _ _ _ _ _ HJ). lia.
    + rewrite (HO j) in * by lia. replace (j + 1 <? ss + 1) with true in Hi by (symmetry; apply Z.ltb_lt; lia). apply (j_cur _ _ _ _ _ HJ j i ltac:(lia)). unfold node_end. destruct (Z.ltb_spec (j + 1) ss) as [D|D]; [rewrite HO in Hi by lia; exact Hi|].
      replace (j + 1) with ss in Hi by lia. rewrite HT in Hi. cbn [mn_start] in Hi. exact Hi.
  - intros i Hi. apply (j_fut _ _ _ _ _ HJ). lia.
  - intros i Hi. destruct (j_done _ _ _ _ _ HJ i Hi) as (A & a & B & C & D). split; [exact A|]. exists a. split; [exact B|]. split; [lia|exact D].
  - intros HPa. destruct (j_np _ _ _ _ _ HJ HPa) as (A & (i & B1 & B2) & C). split; [exact A|]. split; [exists i; split; [lia|exact B2]|]. intros k Hk. destruct (Z.eq_dec k wp) as [->|Hne]; [|apply C; lia].
    pose proof (J_le _ _ _ _ _ HJ 0 (ss - 1) ltac:(lia) ltac:(lia)). lia.
  - intros o Ho. apply (j_unt _ _ _ _ _ HJ). intros i Hi. apply Ho. lia.
Qed.

(** The last node is cut down to the level of the one below. *)
Lemma J_merge ss st out wp g : J ss st out wp g -> 2 <= ss -> wp <= n -> wp - start st (ss - 1) < L -> (wp = n \/ f wp <= value st (ss - 2)) ->
  J (ss - 1) st out wp (fun i => if (start st (ss - 1) <=? i) && (i <? wp) then value st (ss - 2) else g i).
Proof using HP HI HL HV.
  intros HJ H2 Hwp Hlen HF. pose proof (j_ss _ _ _ _ _ HJ) as Hss. destruct (j_inc _ _ _ _ _ HJ (ss - 2) ltac:(lia) ltac:(lia)) as (I1 & I2). replace (ss - 2 + 1) with (ss - 1) in * by lia. pose proof (j_top _ _ _ _ _ HJ) as Ht. pose proof (j_pos _ _ _ _ _ HJ) as E0.
  destruct (J_le _ _ _ _ _ HJ 0 (ss - 2) ltac:(lia) ltac:(lia)) as (I3 & _). set (s := start st (ss - 1)) in *. set (w := value st (ss - 2)) in *.
  assert (forall i, s <= i < wp -> w <= g i) as HW. { intros i Hi. pose proof (J_above _ _ _ _ _ HJ (ss - 1) i ltac:(lia) ltac:(fold s; lia)). lia. }
  assert (forall i, i < s -> (if (s <=? i) && (i <? wp) then w else g i) = g i) as HB. { intros i Hi. replace (s <=? i) with false by (symmetry; apply Z.leb_gt; lia). reflexivity. }
  constructor; try lia.
  - apply (j_len _ _ _ _ _ HJ).
  - intros j Hj Hj1. apply (j_inc _ _ _ _ _ HJ); lia.
  - replace (ss - 1 - 1) with (ss - 2) by lia. lia.
  - intros j Hj. apply (j_pas _ _ _ _ _ HJ). lia.
  - intros j i Hj Hi. cbv beta. unfold node_end in Hi. destruct (Z.ltb_spec (j + 1) (ss - 1)) as [D|D].
    + destruct (J_le _ _ _ _ _ HJ (j + 1) (ss - 2) ltac:(lia) ltac:(lia)) as (A & _). rewrite HB by lia. apply (j_cur _ _ _ _ _ HJ j i ltac:(lia)). unfold node_end. replace (j + 1 <? ss) with true by (symmetry; apply Z.ltb_lt; lia). exact Hi.
    + assert (j = ss - 2) as -> by lia. destruct (Z.lt_ge_cases i s) as [C|C].
      * rewrite HB by lia. apply (j_cur _ _ _ _ _ HJ (ss - 2) i ltac:(lia)). unfold node_end. replace (ss - 2 + 1 <? ss) with true by (symmetry; apply Z.ltb_lt; lia). replace (ss - 2 + 1) with (ss - 1) by lia. fold s. lia.
      * replace (s <=? i) with true by (symmetry; apply Z.leb_le; lia). replace (i <? wp) with true by (symmetry; apply Z.ltb_lt; lia). reflexivity.
  - intros i Hi. cbv beta. replace (i <? wp) with false by (symmetry; apply Z.ltb_ge; lia). rewrite andb_false_r. apply (j_fut _ _ _ _ _ HJ). exact Hi.
  - intros i Hi. cbv beta. destruct ((s <=? i) && (i <? wp)) eqn:E; [|apply (j_le _ _ _ _ _ HJ); exact Hi]. apply andb_prop in E. destruct E as (E1 & E2). apply Z.leb_le in E1. apply Z.ltb_lt in E2. pose proof (HW i ltac:(lia)). pose proof (j_le _ _ _ _ _ HJ i Hi). lia.
  - apply cut_ok; try assumption; try lia.
    + right. assert (g (s - 1) = w) as ->; [|lia]. apply (j_cur _ _ _ _ _ HJ (ss - 2) (s - 1) ltac:(lia)). unfold node_end. replace (ss - 2 + 1 <? ss) with true by (symmetry; apply Z.ltb_lt; lia). replace (ss - 2 + 1) with (ss - 1) by lia. fold s. lia.
    + destruct (Z.eq_dec wp n) as [e|e]; [left; exact e|right]. rewrite (j_fut _ _ _ _ _ HJ wp ltac:(lia)). lia.
    + apply (j_win _ _ _ _ _ HJ).
  - intros i Hi. cbv beta. rewrite HB by lia. destruct (j_done _ _ _ _ _ HJ i Hi) as (A & a & B & C & D). split; [exact A|]. exists a. split; [exact B|]. split; [exact C|]. intros j Hj.
    destruct ((s <=? j) && (j <? wp)) eqn:E; [|apply D; exact Hj]. apply andb_prop in E. destruct E as (E1 & E2). apply Z.leb_le in E1. apply Z.ltb_lt in E2.
    pose proof (D (s - 1) ltac:(lia)) as X. rewrite (j_cur _ _ _ _ _ HJ (ss - 2) (s - 1) ltac:(lia)) in X; [exact X|]. unfold node_end. replace (ss - 2 + 1 <? ss) with true by (symmetry; apply Z.ltb_lt; lia). replace (ss - 2 + 1) with (ss - 1) by lia. fold s. lia.
  - intros HPa. destruct (j_p _ _ _ _ _ HJ HPa) as (a & A & B & C). exists a. split; [exact A|]. split; [exact B|]. intros i Hi. cbv beta. rewrite HB by lia. apply C. exact Hi.
  - apply (j_np _ _ _ _ _ HJ).
  - apply (j_vmin _ _ _ _ _ HJ).
  - apply (j_out _ _ _ _ _ HJ).
  - apply (j_unt _ _ _ _ _ HJ).
Qed.

(** The last node is cut down to the level of the next pixel. *)
Lemma J_lower ss st out wp g st' : J ss st out wp g -> wp < n -> wp - start st (ss - 1) < L -> passed st (ss - 1) = false -> f wp < value st (ss - 1) -> (ss = 1 \/ value st (ss - 2) < f wp) ->
  vmin <= f wp -> wr st (ss - 1) (Mn (start st (ss - 1)) (passed st (ss - 1)) (f wp)) = Some st' ->
  J ss st' out (wp + 1) (fun i => if (start st (ss - 1) <=? i) && (i <? wp) then f wp else g i).
Proof using HP HI HL HV.
  intros HJ Hwp Hlen HPs HF HB Hvm W. pose proof (j_ss _ _ _ _ _ HJ) as Hss. pose proof (j_top _ _ _ _ _ HJ) as Ht. pose proof (j_pos _ _ _ _ _ HJ) as E0. destruct (J_le _ _ _ _ _ HJ 0 (ss - 1) ltac:(lia) ltac:(lia)) as (I3 & _).
  pose proof (nd_wr _ _ _ _ W) as HN. assert (forall j, 0 <= j < ss - 1 -> nd st' j = nd st j) as HO by (intros j Hj; rewrite HN; replace (ss - 1 =? j) with false by (symmetry; apply Z.eqb_neq; lia); reflexivity).
  assert (nd st' (ss - 1) = Mn (start st (ss - 1)) (passed st (ss - 1)) (f wp)) as HT by (rewrite HN, Z.eqb_refl; reflexivity).
  assert (forall j, 0 <= j < ss -> start st' j = start st j /\ passed st' j = passed st j) as HS. { intros j Hj. destruct (Z.eq_dec j (ss - 1)) as [->|e]; [rewrite HT; auto|rewrite HO by lia; auto]. }
  set (s := start st (ss - 1)) in *. set (w := f wp) in *.
  assert (forall i, s <= i < wp -> w <= g i) as HW. { intros i Hi. pose proof (J_above _ _ _ _ _ HJ (ss - 1) i ltac:(lia) ltac:(fold s; lia)). lia. }
  assert (forall i, i < s -> (if (s <=? i) && (i <? wp) then w else g i) = g i) as HBe. { intros i Hi. replace (s <=? i) with false by (symmetry; apply Z.leb_gt; lia). reflexivity. }
  assert (ss = 1 -> s = 0) as Hs1. { intros e. unfold s in *. rewrite e in *. change (1 - 1) with 0 in *. apply (j_np _ _ _ _ _ HJ). exact HPs. }
  assert (value st' 0 = if ss =? 1 then w else value st 0) as HV0. { destruct (Z.eqb_spec ss 1) as [e|e]; [replace 0 with (ss - 1) by lia; rewrite HT; reflexivity|rewrite HO by lia; reflexivity]. }
  assert (forall i, 2 <= ss -> i = s - 1 -> g i = value st (ss - 2)) as Hleft. { intros i H2 ->. destruct (j_inc _ _ _ _ _ HJ (ss - 2) ltac:(lia) ltac:(lia)) as (I1 & I2). replace (ss - 2 + 1) with (ss - 1) in * by lia. apply (j_cur _ _ _ _ _ HJ (ss - 2) (s - 1) ltac:(lia)). unfold node_end. replace (ss - 2 + 1 <? ss) with true by (symmetry; apply Z.ltb_lt; lia). replace (ss - 2 + 1) with (ss - 1) by lia. fold s in I1 |- *. lia. }
  constructor; rewrite ?(proj1 (HS 0 ltac:(lia))), ?(proj2 (HS 0 ltac:(lia))); try lia.
  - rewrite (wr_length _ _ _ _ W). apply (j_len _ _ _ _ _ HJ).
  - intros j Hj Hj1. rewrite (proj1 (HS j ltac:(lia))), (proj1 (HS (j + 1) ltac:(lia))). destruct (j_inc _ _ _ _ _ HJ j Hj Hj1) as (A & B). split; [exact A|]. rewrite (HO j) by lia. destruct (Z.eq_dec (j + 1) (ss - 1)) as [e|e]; [|rewrite HO by lia; exact B].
    rewrite e, HT. cbn [mn_value]. replace j with (ss - 2) by lia. lia.
  - rewrite (proj1 (HS (ss - 1) ltac:(lia))). fold s. lia.
  - intros j Hj. rewrite (proj2 (HS j ltac:(lia))). apply (j_pas _ _ _ _ _ HJ). exact Hj.
  - intros j i Hj Hi. cbv beta. rewrite (proj1 (HS j Hj)) in Hi. unfold node_end in Hi. destruct (Z.ltb_spec (j + 1) ss) as [D|D].
    + rewrite (proj1 (HS (j + 1) ltac:(lia))) in Hi. destruct (J_le _ _ _ _ _ HJ (j + 1) (ss - 1) ltac:(lia) ltac:(lia)) as (A & _). rewrite HBe by (fold s in A; lia). rewrite (HO j) by lia. apply (j_cur _ _ _ _ _ HJ j i ltac:(lia)). unfold node_end. replace (j + 1 <? ss) with true by (symmetry; apply Z.ltb_lt; lia). exact Hi.
    + assert (j = ss - 1) as -> by lia. rewrite HT. cbn [mn_value]. fold s in Hi. replace (s <=? i) with true by (symmetry; apply Z.leb_le; lia). destruct (Z.ltb_spec i wp) as [C|C]; [reflexivity|]. cbn [andb]. replace i with wp by lia. apply (j_fut _ _ _ _ _ HJ). lia.
  - intros i Hi. cbv beta. replace (i <? wp) with false by (symmetry; apply Z.ltb_ge; lia). rewrite andb_false_r. apply (j_fut _ _ _ _ _ HJ). lia.
  - intros i Hi. cbv beta. destruct ((s <=? i) && (i <? wp)) eqn:E; [|apply (j_le _ _ _ _ _ HJ); exact Hi]. apply andb_prop in E. destruct E as (E1 & E2). apply Z.leb_le in E1. apply Z.ltb_lt in E2. pose proof (HW i ltac:(lia)). pose proof (j_le _ _ _ _ _ HJ i Hi). lia.
  - apply cut_ok; try assumption; try lia.
    + destruct (Z.eq_dec ss 1) as [e|e]; [left; apply Hs1, e|right]. rewrite Hleft by lia. lia.
    + right. rewrite (j_fut _ _ _ _ _ HJ wp ltac:(lia)). fold w. lia.
    + apply (j_win _ _ _ _ _ HJ).
  - intros i Hi. cbv beta. fold s in I3. rewrite HBe by lia. destruct (j_done _ _ _ _ _ HJ i Hi) as (A & a & B & C & D). split; [exact A|]. exists a. split; [exact B|]. split; [lia|]. intros j Hj.
    destruct ((s <=? j) && (j <? wp)) eqn:E; [|apply D; exact Hj]. apply andb_prop in E. destruct E as (E1 & E2). apply Z.leb_le in E1. apply Z.ltb_lt in E2.
    assert (2 <= ss) as H2. { destruct (Z.eq_dec ss 1) as [e|e]; [|lia]. pose proof (Hs1 e). lia. }
    pose proof (D (s - 1) ltac:(lia)) as X. rewrite (Hleft (s - 1) H2 eq_refl) in X. lia.
  - intros HPa. destruct (j_p _ _ _ _ _ HJ HPa) as (a & A & B & C). exists a. split; [exact A|]. split; [exact B|]. intros i Hi. cbv beta. fold s in I3. rewrite HBe by lia.
    rewrite HV0. destruct (Z.eqb_spec ss 1) as [e|e]; [pose proof (Hs1 e) as Hs0|apply C; exact Hi]. unfold s in Hs0. rewrite e in Hs0. change (1 - 1) with 0 in Hs0. lia.
  - intros HPa. destruct (j_np _ _ _ _ _ HJ HPa) as (A & (i & B1 & B2) & C). split; [exact A|]. rewrite HV0. destruct (Z.eqb_spec ss 1) as [e|e].
    + split; [exists wp; split; [lia|reflexivity]|]. intros k Hk. destruct (Z.eq_dec k wp) as [->|Hne]; [lia|]. pose proof (C k ltac:(lia)). rewrite e in HF. change (1 - 1) with 0 in HF. lia.
    + split; [exists i; split; [lia|exact B2]|]. intros k Hk. destruct (Z.eq_dec k wp) as [->|Hne]; [|apply C; lia]. fold w. pose proof (J_le _ _ _ _ _ HJ 0 (ss - 2) ltac:(lia) ltac:(lia)). lia.
  - rewrite HV0. pose proof (j_vmin _ _ _ _ _ HJ). destruct (ss =? 1); lia.
  - apply (j_out _ _ _ _ _ HJ).
  - intros o Ho. apply (j_unt _ _ _ _ _ HJ). intros i Hi. apply Ho. lia.
Qed.

(** A run is found: every pixel so far has its level. *)
Lemma J_flush ss st out wp g st' out' : J ss st out wp g -> wp < n -> (passed st (ss - 1) = true \/ L <= wp - start st (ss - 1)) -> f wp < value st (ss - 1) -> vmin <= f wp ->
  Z.of_nat (length out') = len -> (forall i, start st 0 <= i < wp -> rd out' (P i) = Some (g i)) -> (forall o, (forall i, start st 0 <= i < wp -> P i <> o) -> rd out' o = rd out o) ->
  wr st 0 (Mn wp true (f wp)) = Some st' -> J 1 st' out' (wp + 1) g.
Proof using HP HI HL HV.
  intros HJ Hwp HR HF Hvm LO H1 H2 W. pose proof (j_ss _ _ _ _ _ HJ) as Hss. pose proof (j_top _ _ _ _ _ HJ) as Ht. pose proof (j_pos _ _ _ _ _ HJ) as E0. destruct (J_le _ _ _ _ _ HJ 0 (ss - 1) ltac:(lia) ltac:(lia)) as (I3 & I4).
  pose proof (nd_wr _ _ _ _ W) as HN. assert (nd st' 0 = Mn wp true (f wp)) as HT by (rewrite HN; reflexivity). pose proof (runs_ok _ _ _ _ _ HJ HR) as HRun.
  constructor; rewrite ?HT; cbn [mn_start mn_value mn_passed]; try lia.
  - rewrite (wr_length _ _ _ _ W). apply (j_len _ _ _ _ _ HJ).
  - change (1 - 1) with 0. rewrite HT. cbn [mn_start]. lia.
  - intros j i Hj. replace j with 0 by lia. rewrite HT. cbn [mn_start mn_value]. unfold node_end. change (0 + 1 <? 1) with false. cbv iota. intros Hi. replace i with wp by lia. apply (j_fut _ _ _ _ _ HJ). lia.
  - intros i Hi. apply (j_fut _ _ _ _ _ HJ). lia.
  - apply (j_le _ _ _ _ _ HJ).
  - apply (j_win _ _ _ _ _ HJ).
  - intros i Hi. split.
    + destruct (Z.lt_ge_cases i (start st 0)) as [C|C]; [|apply H1; lia]. rewrite H2; [apply (j_done _ _ _ _ _ HJ); lia|]. intros k Hk EE. apply HI in EE; lia.
    + destruct (HRun i Hi) as (a & A & B & C). exists a. split; [exact A|]. split; [lia|exact C].
  - intros _. destruct (HRun (wp - 1) ltac:(lia)) as (a & A & B & C). exists (wp - L). assert (a + L = wp) by lia. replace (wp - L) with a by lia. split; [lia|]. split; [lia|]. intros i Hi. specialize (C i ltac:(lia)).
    pose proof (J_above _ _ _ _ _ HJ (ss - 1) (wp - 1) ltac:(lia) ltac:(lia)). lia.
  - intros o Ho. rewrite H2 by (intros i Hi; apply Ho; lia). apply (j_unt _ _ _ _ _ HJ). intros i Hi. apply Ho. lia.
Qed.

Lemma mpop_ok : forall k ss st out wp g idx, Z.of_nat k = ss -> J ss st out wp g -> wp < n -> f wp <= value st (ss - 1) -> idx_ok idx wp ->
  exists st' k' out' g', mpop k L (f wp) wp idx st out = Some (st', k', out') /\ J (Z.of_nat k') st' out' (wp + 1) g'.
Proof using HP HI HL HV.
  induction k as [|k IH]; intros ss st out wp g idx Hk HJ Hwp HF HX; pose proof (j_ss _ _ _ _ _ HJ) as Hss; [lia|]. pose proof (j_top _ _ _ _ _ HJ) as Ht. pose proof (j_pos _ _ _ _ _ HJ) as E0. destruct (J_le _ _ _ _ _ HJ 0 (ss - 1) ltac:(lia) ltac:(lia)) as (I3 & I4).
  assert (vmin <= f wp) as Hvm by (apply HV; lia). cbn [mpop]. replace (Z.of_nat k) with (ss - 1) by lia. rewrite (rd_nd st (ss - 1)) by (try apply (j_len _ _ _ _ _ HJ); lia). cbn [option_bind].
  destruct (Z.ltb_spec (f wp) (value st (ss - 1))) as [C|C]; cbn [negb].
  2:{ exists st, (S k), out, g. split; [reflexivity|]. replace (Z.of_nat (S k)) with ss by lia. apply J_same; [exact HJ|exact Hwp|lia]. }
  destruct (passed st (ss - 1) || (wp - start st (ss - 1) >=? L)) eqn:E.
  - assert (passed st (ss - 1) = true \/ L <= wp - start st (ss - 1)) as HR. { apply orb_prop in E. destruct E as [E|E]; [left; exact E|right; apply Z.geb_le in E; lia]. }
    destruct (flush_ok _ _ _ _ _ idx HJ ltac:(lia) HX) as (out1 & out' & E1 & E2 & L' & H1 & H2). replace (Z.to_nat (ss - 1)) with k in E1 by lia. rewrite E1. cbn [option_bind]. rewrite E2. cbn [option_bind].
    destruct (wr_Some st 0 (Mn wp true (f wp)) ltac:(rewrite (j_len _ _ _ _ _ HJ); lia)) as (st' & W). rewrite W. cbn [option_bind]. exists st', 1%nat, out', g. split; [reflexivity|]. change (Z.of_nat 1) with 1. eapply J_flush; eassumption.
  - apply orb_false_elim in E. destruct E as (E1 & E2). rewrite Z.geb_leb in E2. apply Z.leb_gt in E2.
    destruct k as [|k].
    + assert (ss = 1) as -> by lia. cbn [option_bind]. change (Z.of_nat 0) with 0. change (1 - 1) with 0 in *. destruct (wr_Some st 0 (Mn (start st 0) (passed st 0) (f wp)) ltac:(rewrite (j_len _ _ _ _ _ HJ); lia)) as (st' & W). rewrite W. cbn [option_bind].
      eexists st', 1%nat, out, _. split; [reflexivity|]. change (Z.of_nat 1) with 1. eapply (J_lower 1); try eassumption; try lia.
    + replace (Z.of_nat k) with (ss - 2) by lia. rewrite (rd_nd st (ss - 2)) by (try apply (j_len _ _ _ _ _ HJ); lia). cbn [option_map option_bind]. rewrite Z.gtb_ltb. destruct (Z.ltb_spec (value st (ss - 2)) (f wp)) as [D|D].
      * destruct (wr_Some st (ss - 1) (Mn (start st (ss - 1)) (passed st (ss - 1)) (f wp)) ltac:(rewrite (j_len _ _ _ _ _ HJ); lia)) as (st' & W). rewrite W. cbn [option_bind].
        eexists st', (S (S k)), out, _. split; [reflexivity|]. replace (Z.of_nat (S (S k))) with ss by lia. eapply (J_lower ss); try eassumption; try lia.
      * apply (IH (ss - 1) st out wp _ idx ltac:(lia) (J_merge ss st out wp g HJ ltac:(lia) ltac:(lia) E2 (or_intror D))); [exact Hwp|replace (ss - 1 - 1) with (ss - 2) by lia; exact D|exact HX].
Qed.

(** [BuildOpeningFromPoint]. *)
Definition mstate_ok (s : mstate) (wp : Z) : Prop :=
  ms_wp s = wp /\ n <= Z.of_nat (length (ms_idx s)) /\ idx_ok (ms_idx s) wp /\ exists g, J (Z.of_nat (ms_size s)) (ms_stack s) (ms_out s) wp g.

Lemma build_ok s wp : mstate_ok s wp -> 0 <= wp < n -> exists s', BuildOpeningFromPoint L (f wp) (P wp) s = Some s' /\ length (ms_idx s') = length (ms_idx s) /\ mstate_ok s' (wp + 1).
Proof using HP HI HL HV.
  destruct s as [wp' idx st k out]. intros (Ewp & Hlen & HX & g & HJ) Hwp. cbn [ms_wp ms_idx ms_stack ms_size ms_out] in *. subst wp'. unfold BuildOpeningFromPoint. pose proof (j_ss _ _ _ _ _ HJ) as Hss.
  destruct (wr_Some idx wp (P wp) ltac:(lia)) as (idx' & W). rewrite W. cbn [option_bind]. rewrite (rd_nd st (Z.of_nat k - 1)) by (try apply (j_len _ _ _ _ _ HJ); lia). cbn [option_bind].
  assert (idx_ok idx' (wp + 1)) as HX'. { intros i Hi. rewrite (rd_wr _ _ _ _ _ W). destruct (Z.eqb_spec wp i) as [->|Hne]; [reflexivity|]. apply HX. lia. }
  assert (exists st' k' out' g', (if f wp >? value st (Z.of_nat k - 1) then option_bind (wr st (Z.of_nat k) (Mn wp false (f wp))) (fun st => Some (st, S k, out)) else mpop k L (f wp) wp idx' st out) = Some (st', k', out') /\ J (Z.of_nat k') st' out' (wp + 1) g') as (st' & k' & out' & g' & -> & HJ').
  { rewrite Z.gtb_ltb. destruct (Z.ltb_spec (value st (Z.of_nat k - 1)) (f wp)) as [C|C].
    - pose proof (J_mono _ _ _ _ _ HJ 0 (Z.of_nat k - 1) ltac:(lia) ltac:(lia) ltac:(lia)) as (_ & Hm). rewrite Z.add_0_l in Hm. pose proof (j_vmin _ _ _ _ _ HJ). pose proof (HV wp Hwp).
      destruct (wr_Some st (Z.of_nat k) (Mn wp false (f wp)) ltac:(rewrite (j_len _ _ _ _ _ HJ); lia)) as (st' & W'). rewrite W'. cbn [option_bind]. exists st', (S k), out, g. split; [reflexivity|]. replace (Z.of_nat (S k)) with (Z.of_nat k + 1) by lia. eapply J_push; try eassumption; lia.
    - apply (mpop_ok k (Z.of_nat k) st out wp g idx' eq_refl HJ ltac:(lia) C). intros i Hi. apply HX'. lia. }
  cbn [option_bind]. eexists. split; [reflexivity|]. cbn [ms_idx]. split; [apply (wr_length _ _ _ _ W)|]. split; [reflexivity|]. cbn [ms_idx ms_stack ms_size ms_out]. split; [rewrite (wr_length _ _ _ _ W); exact Hlen|]. split; [exact HX'|]. exists g'. exact HJ'.
Qed.

(** [EndProcess]. *)
Definition finished (out : list Z) : Prop := Z.of_nat (length out) = len /\ (forall i, 0 <= i < n -> exists v, rd out (P i) = Some v /\ length_opened f n (Z.min L n) i v) /\
  forall o, (forall i, 0 <= i < n -> P i <> o) -> rd out o = rd out0 o.

Lemma opened_level g i : (forall i, 0 <= i < n -> g i <= f i) -> (forall a v, 0 <= a -> a + L <= n -> (forall i, a <= i < a + L -> v <= f i) -> forall i, a <= i < a + L -> v <= g i) ->
  (exists a, 0 <= a <= i /\ i < a + L <= n /\ forall j, a <= j < a + L -> g i <= g j) -> length_opened f n (Z.min L n) i (g i).
Proof using HP HI HL HV.
  intros HLe HW (a & A & B & C). replace (Z.min L n) with L by lia. split.
  - exists a. split; [exact A|]. split; [exact B|]. intros j Hj. specialize (C j Hj). specialize (HLe j ltac:(lia)). lia.
  - intros v (b & A' & B' & C'). apply (HW b v); [lia|lia|exact C'|lia].
Qed.

Lemma finish_runs ss st out g idx : J ss st out n g -> idx_ok idx n -> (passed st (ss - 1) = true \/ L <= n - start st (ss - 1)) -> exists out1 out',
  paint_below idx st (Z.to_nat (ss - 1)) out = Some out1 /\ paint idx (start st (ss - 1)) n (value st (ss - 1)) out1 = Some out' /\ finished out'.
Proof using HP HI HL HV.
  intros HJ HX HR. destruct (flush_ok _ _ _ _ _ idx HJ ltac:(lia) HX) as (out1 & out' & E1 & E2 & L' & H1 & H2). exists out1, out'. split; [exact E1|]. split; [exact E2|]. split; [exact L'|]. pose proof (j_pos _ _ _ _ _ HJ) as E0. split.
  - intros i Hi. exists (g i). split.
    + destruct (Z.lt_ge_cases i (start st 0)) as [C|C]; [|apply H1; lia]. rewrite H2; [apply (j_done _ _ _ _ _ HJ); lia|]. intros k Hk EE. apply HI in EE; lia.
    + apply opened_level; [apply (j_le _ _ _ _ _ HJ)|apply (j_win _ _ _ _ _ HJ)|]. apply (runs_ok _ _ _ _ _ HJ HR i Hi).
  - intros o Ho. rewrite H2 by (intros i Hi; apply Ho; lia). apply (j_unt _ _ _ _ _ HJ). exact Ho.
Qed.

Lemma mend_ok idx : forall k ss st out g, Z.of_nat k = ss -> J ss st out n g -> idx_ok idx n -> exists out', mend k L n idx st out = Some out' /\ finished out'.
Proof using HP HI HL HV.
  induction k as [|k IH]; intros ss st out g Hk HJ HX; pose proof (j_ss _ _ _ _ _ HJ) as Hss; [lia|]. pose proof (j_top _ _ _ _ _ HJ) as Ht. pose proof (j_pos _ _ _ _ _ HJ) as E0. destruct (J_le _ _ _ _ _ HJ 0 (ss - 1) ltac:(lia) ltac:(lia)) as (I3 & I4).
  cbn [mend]. replace (Z.of_nat k) with (ss - 1) by lia. rewrite (rd_nd st (ss - 1)) by (try apply (j_len _ _ _ _ _ HJ); lia). cbn [option_bind]. rewrite Z.geb_leb. destruct (Z.leb_spec L (n - start st (ss - 1))) as [C|C].
  - destruct (finish_runs _ _ _ _ idx HJ HX (or_intror C)) as (out1 & out' & E1 & E2 & F). replace (Z.to_nat (ss - 1)) with k in E1 by lia. rewrite E1. cbn [option_bind]. exists out'. split; [exact E2|exact F].
  - destruct k as [|k].
    + assert (ss = 1) as -> by lia. change (1 - 1) with 0 in *. cbn [mend]. rewrite (rd_nd st 0) by (try apply (j_len _ _ _ _ _ HJ); lia). cbn [option_bind]. destruct (passed st 0) eqn:EP.
      * destruct (finish_runs _ _ _ _ idx HJ HX (or_introl EP)) as (out1 & out' & E1 & E2 & F). cbn in E1. injection E1 as <-. change (1 - 1) with 0 in E2. exists out'. split; [exact E2|exact F].
      * destruct (j_np _ _ _ _ _ HJ EP) as (S0 & (i0 & B1 & B2) & B3). rewrite S0 in *. destruct (paint_ok' idx (value st 0) 0 n out ltac:(lia) ltac:(lia) HX (j_out _ _ _ _ _ HJ)) as (out' & E & L' & H1 & H2). exists out'. split; [exact E|]. split; [exact L'|]. split.
        -- intros i Hi. exists (value st 0). split; [apply H1; lia|]. replace (Z.min L n) with n by lia. split.
           ++ exists 0. split; [lia|]. split; [lia|]. intros j Hj. apply B3. lia.
           ++ intros v (b & A' & B' & C'). rewrite <- B2. apply C'. lia.
        -- intros o Ho. rewrite H2 by exact Ho. apply (j_unt _ _ _ _ _ HJ). exact Ho.
    + apply (IH (ss - 1) st out _ ltac:(lia) (J_merge ss st out n g HJ ltac:(lia) ltac:(lia) ltac:(lia) (or_introl eq_refl)) HX).
Qed.

(** The first pixel. *)
Lemma first_ok st idx : 1 <= n -> Z.of_nat (length st) = 256 -> n <= Z.of_nat (length idx) -> Z.of_nat (length out0) = len -> rd st 0 = Some (Mn 0 false (f 0)) -> rd idx 0 = Some (P 0) -> mstate_ok (Ms 1 idx st 1 out0) 1.
Proof using HP HI HL HV.
  intros Hn LS LX LO RS RX. split; [reflexivity|]. cbn [ms_idx ms_stack ms_size ms_out]. split; [exact LX|]. split; [intros i Hi; replace i with 0 by lia; exact RX|]. exists f.
  assert (nd st 0 = Mn 0 false (f 0)) as HN by (unfold nd; rewrite (znth_rd _ _ _ _ RS); reflexivity). change (Z.of_nat 1) with 1. constructor; change (1 - 1) with 0; rewrite ?HN; cbn [mn_start mn_value mn_passed]; try lia; auto.
  - intros j i Hj. replace j with 0 by lia. rewrite HN. cbn [mn_start mn_value]. unfold node_end. change (0 + 1 <? 1) with false. cbv iota. intros Hi. replace i with 0 by lia. reflexivity.
  - intros _. split; [reflexivity|]. split; [exists 0; split; [lia|reflexivity]|]. intros i Hi. replace i with 0 by lia. lia.
  - apply HV. lia.
Qed.
End Line.
