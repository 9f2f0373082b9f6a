(** Dilations, erosions, openings along a direction. *)
From Verif Require Import Spec.FastLineSpec Proofs.ImageFacts Proofs.PreludeFacts Proofs.LoopFacts Proofs.MorphProofs Proofs.FastLineProofs1 Proofs.FastLineProofs2 Proofs.FastLineProofs3.

Section Dilate.
Variables (fuel : nat) (mem : Z -> Z) (alias : bool) (im : img) (dx dy r : Z) (out : img).
Hypothesis HC : line_call fuel alias im dx dy r out.
Notation w := (dw (sz im)).
Notation h := (dh (sz im)).
Notation V := (znth 0 (pixs im)).

Lemma call_parts : 1 <= w < 2 ^ 31 /\ 1 <= h < 2 ^ 31 /\ dd (sz im) = 1 /\ Z.of_nat (length (pixs im)) = w * h /\ Z.of_nat (length (pixs out)) = w * h /\ 0 <= r < 2 ^ 30 /\
  w + h + Z.abs dx + Z.abs dy + 3 < Z.of_nat fuel.
Proof using HC mem.
  destruct HC as (((_ & L1) & A & B & D) & (_ & L2) & ES & _ & R & _ & _ & _ & F). rewrite ES in L2. rewrite D in L1, L2. unfold fuel_ok in F. repeat split; try lia.
Qed.
Lemma src_ok o : 0 <= o < w * h -> rd (if alias then pixs out else pixs im) o = Some (V o).
Proof using HC mem.
  intros Ho. pose proof call_parts as (_ & _ & _ & L & _ & _ & _). assert ((if alias then pixs out else pixs im) = pixs im) as ->. { destruct HC as (_ & _ & _ & A & _). destruct alias; [rewrite A by reflexivity|]; reflexivity. }
  destruct (rd_in_range (pixs im) o ltac:(lia)) as (v & E). rewrite (znth_rd 0 _ _ _ E). exact E.
Qed.

Lemma row_inj M m : forall a b a' b', 0 <= a < M -> 0 <= b < m -> 0 <= a' < M -> 0 <= b' < m -> b * M + a = b' * M + a' -> a = a' /\ b = b'.
Proof using. clear. intros. assert (b = b'); [|split; [nia|assumption]]. assert (M * (b - b') < M * 1 /\ M * (b' - b) < M * 1) as (P & Q) by lia. apply Z.mul_lt_mono_pos_l in P, Q; lia. Qed.
Lemma row_range M m a b : 0 <= a < M -> 0 <= b < m -> 0 <= b * M + a < M * m.
Proof using. clear. intros. assert (b * M <= (m - 1) * M) by (apply Z.mul_le_mono_nonneg_r; lia). nia. Qed.

Lemma pixel_im x y z v : pixel_is im x y z v <-> (0 <= x < w /\ 0 <= y < h /\ z = 0) /\ V (y * w + x) = v.
Proof using HC mem.
  pose proof call_parts as (P1 & P2 & P3 & L & _). unfold pixel_is, inside, voxel_offset. rewrite P3. split.
  - intros (I & R). assert (z = 0) as -> by lia. split; [lia|]. replace (x + w * (y + h * 0)) with (y * w + x) in R by lia. apply (znth_rd 0 _ _ _ R).
  - intros (I & R). destruct I as (I1 & I2 & ->). split; [lia|]. replace (x + w * (y + h * 0)) with (y * w + x) by lia. pose proof (row_range w h x y I1 I2). destruct (rd_in_range (pixs im) (y * w + x) ltac:(lia)) as (u & E). rewrite (znth_rd 0 _ _ _ E) in R. congruence.
Qed.

(** [swap]: the first coordinate is y. *)
Definition coords (swap : bool) (x y : Z) : Z * Z := if swap then (y, x) else (x, y).
Lemma wrap_ok out' : length out' = length (pixs out) ->
  (forall x y, 0 <= x < w -> 0 <= y < h -> exists v, rd out' (y * w + x) = Some v /\
    (exists x' y', 0 <= x' < w /\ 0 <= y' < h /\ along dx dy r x y x' y' /\ V (y' * w + x') = v) /\
    forall x' y', 0 <= x' < w -> 0 <= y' < h -> along dx dy r x y x' y' -> V (y' * w + x') <= v) ->
  dilated_along dx dy r im (Img (sz out) out').
Proof using HC mem.
  intros HL H. pose proof call_parts as (P1 & P2 & P3 & L & Lo & _). assert (sz out = sz im) as ES by (destruct HC as (_ & _ & E & _); exact E). split; [exact ES|]. split.
  - split; cbn [sz pixs]; [rewrite ES; destruct HC as (((W & _) & _) & _); exact W|]. rewrite ES, P3, HL. lia.
  - intros x y z v (I & R). cbn [sz pixs] in *. rewrite ES in I, R. unfold inside in I. rewrite P3 in I. assert (z = 0) as -> by lia. unfold voxel_offset in R. replace (x + w * (y + h * 0)) with (y * w + x) in R by lia.
    destruct (H x y ltac:(lia) ltac:(lia)) as (v' & R' & (x' & y' & A1 & A2 & A3 & A4) & HM). assert (v' = v) as -> by congruence. split.
    + exists x', y'. split; [exact A3|]. apply pixel_im. split; [lia|exact A4].
    + intros u (x2 & y2 & B1 & B2). apply pixel_im in B2. destruct B2 as ((C1 & C2 & _) & <-). apply HM; assumption.
Qed.

(** A system of lines that covers the image gives the dilation. *)
Lemma rows_ok kd (n d s : Z) (L : Z -> list Z) (B : Z -> Z) js :
  n = Z.abs dy -> d = Z.abs dx -> Z.abs dy <= Z.abs dx -> s = Z.sgn dx * Z.sgn dy ->
  NoDup js -> (forall j, In j js -> line_is w h s (rise n d) (fun a b => b * w + a) (B j) (L j) /\ L j <> []) -> (forall i j, In i js -> In j js -> B i = B j -> i = j) ->
  (forall j, In j js -> kd <> Any -> Z.of_nat (length (L j)) <> 1 /\ Z.of_nat (length (L j)) <> 2 * r + 1) ->
  (forall x y, 0 <= x < w -> 0 <= y < h -> exists j, In j js /\ B j = y - s * rise n d x) ->
  let b := map mem (zseq (Z.max w h)) in
  exists out' b', fold_opt (fun s j => dilate_line kd (2 * r + 1) alias (pixs im) (L j) s) js (pixs out, (b, b, b)) = Some (out', b') /\ dilated_along dx dy r im (Img (sz out) out').
Proof using HC mem.
  intros En Ed Hor Es ND HL HB HK Hcov b. pose proof call_parts as (P1 & P2 & P3 & Li & Lo & Pr & _).
  change (2 ^ 31) with 2147483648 in *. change (2 ^ 30) with 1073741824 in *.
  destruct (system_ok w h s (rise n d) (fun a b => b * w + a) (w * h) ltac:(lia) ltac:(lia) (row_inj w h) (row_range w h) kd r alias (pixs im) V (Z.max w h) ltac:(lia) ltac:(change (2 ^ 62) with 4611686018427387904; lia) ltac:(change (2 ^ 62) with 4611686018427387904; lia) ltac:(lia)
    L B js (pixs out) (b, b, b) ND Lo HL HB HK) as (out' & b' & E & L' & HR).
  { unfold b, buf_len. rewrite map_length, zseq_length, Z2Nat.id by lia. auto. }
  { intros o Ho. apply src_ok. exact Ho. }
  exists out', b'. split; [exact E|]. apply wrap_ok; [exact L'|]. intros x y Hx Hy. destruct (Hcov x y Hx Hy) as (j & Hj & EB). destruct (HR j x y Hj Hx Hy EB) as (v & Ev & (x' & y' & A1 & A2 & A3 & A4 & A5) & HM). exists v.
  unfold along. rewrite <- Es, <- En, <- Ed. replace (n <=? d) with true by (symmetry; apply Z.leb_le; lia). split; [exact Ev|]. split.
  - exists x', y'. split; [exact A1|]. split; [exact A2|]. split; [split; [lia|exact A4]|exact A5].
  - intros x2 y2 C1 C2 (C3 & C4). apply HM; [exact C1|exact C2|lia|exact C4].
Qed.

Lemma columns_ok kd (n d s : Z) (L : Z -> list Z) (B : Z -> Z) js :
  n = Z.abs dx -> d = Z.abs dy -> Z.abs dx < Z.abs dy -> s = Z.sgn dx * Z.sgn dy ->
  NoDup js -> (forall j, In j js -> line_is h w s (rise n d) (fun a b => a * w + b) (B j) (L j) /\ L j <> []) -> (forall i j, In i js -> In j js -> B i = B j -> i = j) ->
  (forall j, In j js -> kd <> Any -> Z.of_nat (length (L j)) <> 1 /\ Z.of_nat (length (L j)) <> 2 * r + 1) ->
  (forall x y, 0 <= x < w -> 0 <= y < h -> exists j, In j js /\ B j = x - s * rise n d y) ->
  let b := map mem (zseq (Z.max w h)) in
  exists out' b', fold_opt (fun s j => dilate_line kd (2 * r + 1) alias (pixs im) (L j) s) js (pixs out, (b, b, b)) = Some (out', b') /\ dilated_along dx dy r im (Img (sz out) out').
Proof using HC mem.
  intros En Ed Hor Es ND HL HB HK Hcov b. pose proof call_parts as (P1 & P2 & P3 & Li & Lo & Pr & _).
  change (2 ^ 31) with 2147483648 in *. change (2 ^ 30) with 1073741824 in *.
  destruct (system_ok h w s (rise n d) (fun a b => a * w + b) (w * h) ltac:(lia) ltac:(lia)) with (kd := kd) (r := r) (alias := alias) (px := pixs im) (V := V) (N := Z.max w h)
    (L := L) (B := B) (js := js) (out := pixs out) (b := (b, b, b)) as (out' & b' & E & L' & HR); try assumption; try lia; try (change (2 ^ 62) with 4611686018427387904; lia).
  { intros a c a' c' Ha Hc Ha' Hc' EE. destruct (row_inj w h c a c' a' Hc Ha Hc' Ha' EE). auto. }
  { intros a c Ha Hc. apply row_range; assumption. }
  { unfold b, buf_len. rewrite map_length, zseq_length, Z2Nat.id by lia. auto. }
  { intros o Ho. apply src_ok. exact Ho. }
  exists out', b'. split; [exact E|]. apply wrap_ok; [exact L'|]. intros x y Hx Hy. destruct (Hcov x y Hx Hy) as (j & Hj & EB). destruct (HR j y x Hj Hy Hx EB) as (v & Ev & (y' & x' & A1 & A2 & A3 & A4 & A5) & HM). exists v.
  unfold along. rewrite <- Es, <- En, <- Ed. replace (d <=? n) with false by (symmetry; apply Z.leb_gt; lia). split; [exact Ev|]. split.
  - exists x', y'. split; [exact A2|]. split; [exact A1|]. split; [split; [lia|exact A4]|exact A5].
  - intros x2 y2 C1 C2 (C3 & C4). apply HM; [exact C2|exact C1|lia|exact C4].
Qed.

Lemma full_line M m d off b : 0 < d -> 1 <= M -> 0 <= b < m -> line_is M m 0 (rise 0 d) off b (map (fun a => off a b) (zseq M)).
Proof using. clear. intros Hd HM Hb. exists 0, M. split; [lia|]. split; [rewrite zrange_0_zseq; apply map_ext; intros a; f_equal; lia|]. intros a. lia. Qed.

Lemma lineDilate_ok : exists D, lineDilate fuel mem alias im dx dy r out = Some (Some (1, D)) /\ dilated_along dx dy r im D.
Proof using HC mem.
  pose proof call_parts as (P1 & P2 & P3 & Li & Lo & Pr & Pf). pose proof HC as (_ & _ & ES & _ & _ & HG & HK1 & HK2 & _). unfold lineDilate. rewrite same_size_true by auto. cbn [negb]. unfold depth. rewrite P3. change (1 >? 1) with false. cbv iota.
  cut (exists out' b', ImageGrayDilateLine fuel alias (width im) (height im) (r * 2 + 1) dx dy (pixs im) (pixs out, (map mem (zseq (Z.max (width im) (height im))), map mem (zseq (Z.max (width im) (height im))), map mem (zseq (Z.max (width im) (height im))))) = Some (Some (out', b')) /\ dilated_along dx dy r im (Img (sz out) out')).
  { intros (out' & b' & -> & HD). cbn [fuel_bind]. eexists. split; [reflexivity|exact HD]. }
  unfold ImageGrayDilateLine, width, height. replace (r * 2 + 1) with (2 * r + 1) by lia.
  destruct (Z.eqb_spec dy 0) as [Ey|Ey].
  { destruct (rows_ok Hor 0 (Z.abs dx) 0 (fun y => map (fun x => y * w + x) (zseq w)) (fun y => y) (zseq h)) as (out' & b' & -> & HD); try (rewrite Ey; cbn; lia); try lia.
    - apply zseq_NoDup.
    - intros j Hj. apply zseq_In in Hj. split; [apply (full_line w h (Z.abs dx) (fun a b => b * w + a) j); try lia; destruct HG as [?|[?|[?|?]]]; lia|]. intros C. apply (f_equal (@length _)) in C. rewrite map_length, zseq_length in C. cbn in C. lia.
    - intros j Hj _. rewrite map_length, zseq_length, Z2Nat.id by lia. apply HK1. exact Ey.
    - intros x y Hx Hy. exists y. split; [apply zseq_In; exact Hy|lia].
    - exists out', b'. split; [reflexivity|exact HD]. }
  destruct (Z.eqb_spec dx 0) as [Ex|Ex].
  { destruct (columns_ok Ver 0 (Z.abs dy) 0 (fun x => map (fun y => y * w + x) (zseq h)) (fun x => x) (zseq w)) as (out' & b' & -> & HD); try (rewrite Ex; cbn; lia); try lia.
    - apply zseq_NoDup.
    - intros j Hj. apply zseq_In in Hj. split; [apply (full_line h w (Z.abs dy) (fun a b => a * w + b) j); lia|]. intros C. apply (f_equal (@length _)) in C. rewrite map_length, zseq_length in C. cbn in C. lia.
    - intros j Hj _. rewrite map_length, zseq_length, Z2Nat.id by lia. apply HK2. exact Ex.
    - intros x y Hx Hy. exists x. split; [apply zseq_In; exact Hx|lia].
    - exists out', b'. split; [reflexivity|exact HD]. }
  destruct (Z.eqb_spec (Z.abs dx) (Z.abs dy)) as [Ea|Ea].
  { assert (dx = - dy) as En by (destruct HG as [?|[?|[?|?]]]; lia). replace (dx =? - dy) with true by (symmetry; apply Z.eqb_eq; exact En).
    set (L := fun i => match ComputeLineNegDiag fuel w h 0 i with Some p => p | None => [] end).
    assert (forall i, 0 <= i <= w + h - 1 -> ComputeLineNegDiag fuel w h 0 i = Some (L i) /\ line_is w h (-1) (fun a => a) (fun a b => b * w + a) i (L i) /\ (L i = [] <-> i = w + h - 1)) as HL.
    { intros i Hi. destruct (NegDiag_ok w h ltac:(lia) ltac:(lia) fuel i Hi ltac:(lia)) as (p & E & HI & HE). unfold L. rewrite E. split; [reflexivity|]. split; assumption. }
    rewrite (line_loop_ok _ (dilate_line Any (2 * r + 1) alias (pixs im)) 1 L (w + h - 1) ltac:(lia) fuel 0 _ ltac:(lia)).
    - destruct (rows_ok Any (Z.abs dy) (Z.abs dx) (-1) L (fun y => y) (zseq (w + h - 1))) as (out' & b' & -> & HD); try lia.
      + apply zseq_NoDup.
      + intros j Hj. apply zseq_In in Hj. destruct (HL j ltac:(lia)) as (_ & (lo & k & A1 & A2 & A3) & HE). split; [|intros C; apply HE in C; lia].
        assert (forall a, rise (Z.abs dy) (Z.abs dx) a = a) as HR by (intros a; rewrite Ea; apply rise_diag; lia). exists lo, k. split; [exact A1|]. split; [rewrite A2; apply map_ext; intros a; rewrite HR; reflexivity|]. intros a. rewrite HR. apply A3.
      + intros j _ C. congruence.
      + intros x y Hx Hy. exists (y + x). split; [apply zseq_In; lia|]. rewrite Ea, rise_diag by lia. lia.
      + exists out', b'. split; [reflexivity|exact HD].
    - intros i Hi. replace (0 + 1 * i) with i by lia. destruct (HL i ltac:(lia)) as (E & _ & HE). split; [exact E|]. intros C. apply HE in C. lia.
    - replace (0 + 1 * (w + h - 1)) with (w + h - 1) by lia. destruct (HL (w + h - 1) ltac:(lia)) as (E & _ & HE). rewrite E. f_equal. apply HE. reflexivity. }
  assert (0 < dx * dy) as Hpos by (destruct HG as [?|[?|[?|?]]]; lia).
  assert (((dx >? 0) && (dy >? 0)) || ((dx <? 0) && (dy <? 0)) = true /\ Z.sgn dx * Z.sgn dy = 1) as (-> & Hsg).
  { rewrite !Z.gtb_ltb. destruct (Z.lt_trichotomy dx 0) as [C|[C|C]]; [|lia|]; [assert (dy < 0) by nia|assert (0 < dy) by nia].
    - replace (dx <? 0) with true by (symmetry; apply Z.ltb_lt; lia). replace (dy <? 0) with true by (symmetry; apply Z.ltb_lt; lia). rewrite orb_true_r. split; [reflexivity|]. rewrite !Z.sgn_neg by lia. reflexivity.
    - replace (0 <? dx) with true by (symmetry; apply Z.ltb_lt; lia). replace (0 <? dy) with true by (symmetry; apply Z.ltb_lt; lia). split; [reflexivity|]. rewrite !Z.sgn_pos by lia. reflexivity. }
  assert (forall M m n d off, 0 < n <= d -> 1 <= M -> 1 <= m -> M + d < Z.of_nat fuel -> exists L, (forall i, 0 <= i < m + rise n d (M - 1) -> ComputeBresenhamLineP fuel n d M m off 0 (m - 1 + -1 * i) = Some (L i) /\ L i <> [] /\ line_is M m 1 (rise n d) off (m - 1 - i) (L i)) /\
    ComputeBresenhamLineP fuel n d M m off 0 (m - 1 + -1 * (m + rise n d (M - 1))) = Some []) as HW.
  { intros M m n d off Hn HM Hm Hfu. exists (fun i => match ComputeBresenhamLineP fuel n d M m off 0 (m - 1 + -1 * i) with Some p => p | None => [] end). split.
    - intros i Hi. destruct (P_ok n d M m off ltac:(lia) Hn HM Hm fuel (m - 1 + -1 * i) ltac:(lia) Hfu) as (p & E & HI). rewrite E. split; [reflexivity|]. split; [apply (P_nonempty n d M m off ltac:(lia) Hn HM Hm (m - 1 + -1 * i)); [lia|exact HI]|]. replace (m - 1 - i) with (m - 1 + -1 * i) by lia. exact HI.
    - pose proof (rise_mono n d 0 (M - 1) ltac:(lia) ltac:(lia) ltac:(lia)) as R0. rewrite rise_0 in R0 by lia. destruct (P_ok n d M m off ltac:(lia) Hn HM Hm fuel (m - 1 + -1 * (m + rise n d (M - 1))) ltac:(lia) Hfu) as (p & E & HI). rewrite E. f_equal. apply (P_empty n d M m off ltac:(lia) Hn (m - 1 + -1 * (m + rise n d (M - 1)))); [lia|exact HI]. }
  assert (forall n d a, 0 < n <= d -> 0 <= a -> 0 <= rise n d a <= a) as HRB.
  { intros n d a Hn Ha. pose proof (rise_mono n d 0 a ltac:(lia) ltac:(lia) Ha) as R0. rewrite rise_0 in R0 by lia. pose proof (rise_bounds n d a ltac:(lia)) as R1. split; [exact R0|]. pose proof (Z.mul_le_mono_nonneg_r n d a Ha ltac:(lia)). assert (d * rise n d a < d * (a + 1)) as Q by lia. apply Z.mul_lt_mono_pos_l in Q; lia. }
  rewrite Z.gtb_ltb. destruct (Z.ltb_spec (Z.abs dy) (Z.abs dx)) as [C|C].
  - destruct (HW w h (Z.abs dy) (Z.abs dx) (fun a b => b * w + a) ltac:(lia) ltac:(lia) ltac:(lia) ltac:(lia)) as (L & HL & HE). pose proof (HRB (Z.abs dy) (Z.abs dx) (w - 1) ltac:(lia) ltac:(lia)) as HB0.
    rewrite (line_loop_ok _ (dilate_line Any (2 * r + 1) alias (pixs im)) (-1) L (h + rise (Z.abs dy) (Z.abs dx) (w - 1)) ltac:(lia) fuel (h - 1) _ ltac:(lia)).
    + destruct (rows_ok Any (Z.abs dy) (Z.abs dx) 1 L (fun i => h - 1 - i) (zseq (h + rise (Z.abs dy) (Z.abs dx) (w - 1)))) as (out' & b' & -> & HD); try lia.
      * apply zseq_NoDup.
      * intros j Hj. apply zseq_In in Hj. destruct (HL j Hj) as (_ & A & B). split; assumption.
      * intros j _ K. congruence.
      * intros x y Hx Hy. exists (h - 1 - (y - rise (Z.abs dy) (Z.abs dx) x)). split; [|lia]. apply zseq_In. pose proof (rise_mono (Z.abs dy) (Z.abs dx) x (w - 1) ltac:(lia) ltac:(lia) ltac:(lia)). pose proof (HRB (Z.abs dy) (Z.abs dx) x ltac:(lia) ltac:(lia)). lia.
      * exists out', b'. split; [reflexivity|exact HD].
    + intros i Hi. destruct (HL i Hi) as (A & B & _). split; assumption.
    + exact HE.
  - destruct (HW h w (Z.abs dx) (Z.abs dy) (fun a b => a * w + b) ltac:(lia) ltac:(lia) ltac:(lia) ltac:(lia)) as (L & HL & HE). pose proof (HRB (Z.abs dx) (Z.abs dy) (h - 1) ltac:(lia) ltac:(lia)) as HB0.
    rewrite (line_loop_ok _ (dilate_line Any (2 * r + 1) alias (pixs im)) (-1) L (w + rise (Z.abs dx) (Z.abs dy) (h - 1)) ltac:(lia) fuel (w - 1) _ ltac:(lia)).
    + destruct (columns_ok Any (Z.abs dx) (Z.abs dy) 1 L (fun i => w - 1 - i) (zseq (w + rise (Z.abs dx) (Z.abs dy) (h - 1)))) as (out' & b' & -> & HD); try lia.
      * apply zseq_NoDup.
      * intros j Hj. apply zseq_In in Hj. destruct (HL j Hj) as (_ & A & B). split; assumption.
      * intros j _ K. congruence.
      * intros x y Hx Hy. exists (w - 1 - (x - rise (Z.abs dx) (Z.abs dy) y)). split; [|lia]. apply zseq_In. pose proof (rise_mono (Z.abs dx) (Z.abs dy) y (h - 1) ltac:(lia) ltac:(lia) ltac:(lia)). pose proof (HRB (Z.abs dx) (Z.abs dy) y ltac:(lia) ltac:(lia)). lia.
      * exists out', b'. split; [reflexivity|exact HD].
    + intros i Hi. destruct (HL i Hi) as (A & B & _). split; assumption.
    + exact HE.
Qed.
End Dilate.
