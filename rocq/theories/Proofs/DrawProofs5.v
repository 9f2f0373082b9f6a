From Verif Require Export Proofs.DrawProofs4.
From Coq Require Import Lia.

(** *** copyPattern *)

Lemma copy_to_ok src from n px to : 0 <= n -> 0 <= from -> from + n <= Z.of_nat (length src) -> 0 <= to -> to + n <= Z.of_nat (length px) ->
  exists px', copy_to src from n px to = Some px' /\ length px' = length px /\
    forall a, rd px' a = if (to <=? a) && (a <? to + n) then rd src (from + (a - to)) else rd px a.
Proof.
  intros Hn Hf Hs Ht Hp. unfold copy_to.
  destruct (fold_opt_inv (fun done px' => length px' = length px /\
     forall a, rd px' a = if (to <=? a) && (a <? to + Z.of_nat (length done)) then rd src (from + (a - to)) else rd px a)
    (fun px k => option_bind (rd src (from + k)) (wr px (to + k))) (zseq n) px) as (px' & E & L & R).
  - split; [reflexivity|]. intros a. cbn [length]. replace (_ && _) with false by lia. reflexivity.
  - intros done k todo b El (L & R).
    assert (k = Z.of_nat (length done) /\ k < n) as (Ek & Hk).
    { assert (rd (zseq n) (Z.of_nat (length done)) = Some k) as Q. { rewrite El, rd_app. rewrite Z.ltb_irrefl, Z.sub_diag. reflexivity. }
      pose proof (rd_Some_range _ _ _ Q) as Q2. rewrite zseq_length in Q2. rewrite rd_zseq in Q by lia. injection Q as Q. lia. }
    destruct (rd_in_range src (from + k)) as (v & Ev); [lia|]. rewrite Ev. cbn [option_bind].
    destruct (wr_Some b (to + k) v) as (b' & E); [lia|]. exists b'. split; [exact E|]. split; [rewrite (wr_length _ _ _ _ E); exact L|].
    intros a. rewrite (rd_wr _ _ _ _ _ E), app_length. cbn [length]. rewrite R.
    destruct (Z.eqb_spec (to + k) a) as [<-|N].
    + replace (_ && _) with true by lia. rewrite <- Ev. f_equal. lia.
    + replace (a <? to + Z.of_nat (length done + 1)) with (a <? to + Z.of_nat (length done)) by lia. reflexivity.
  - exists px'. split; [exact E|]. split; [exact L|]. intros a. rewrite R, zseq_length, Z2Nat.id by lia. reflexivity.
Qed.

Lemma copy_within_ok px from n to : 0 <= n -> 0 <= from -> from + n <= to -> to + n <= Z.of_nat (length px) ->
  exists px', copy_within px from n to = Some px' /\ length px' = length px /\
    forall a, rd px' a = if (to <=? a) && (a <? to + n) then rd px (from + (a - to)) else rd px a.
Proof.
  intros Hn Hf Hs Hp. unfold copy_within.
  destruct (fold_opt_inv (fun done px' => length px' = length px /\
     forall a, rd px' a = if (to <=? a) && (a <? to + Z.of_nat (length done)) then rd px (from + (a - to)) else rd px a)
    (fun px k => option_bind (rd px (from + k)) (wr px (to + k))) (zseq n) px) as (px' & E & L & R).
  - split; [reflexivity|]. intros a. cbn [length]. replace (_ && _) with false by lia. reflexivity.
  - intros done k todo b El (L & R).
    assert (k = Z.of_nat (length done) /\ k < n) as (Ek & Hk).
    { assert (rd (zseq n) (Z.of_nat (length done)) = Some k) as Q. { rewrite El, rd_app. rewrite Z.ltb_irrefl, Z.sub_diag. reflexivity. }
      pose proof (rd_Some_range _ _ _ Q) as Q2. rewrite zseq_length in Q2. rewrite rd_zseq in Q by lia. injection Q as Q. lia. }
    destruct (rd_in_range px (from + k)) as (v & Ev); [lia|].
    assert (rd b (from + k) = Some v) as Eb. { rewrite R. replace (to <=? from + k) with false by lia. exact Ev. }
    rewrite Eb. cbn [option_bind].
    destruct (wr_Some b (to + k) v) as (b' & E); [lia|]. exists b'. split; [exact E|]. split; [rewrite (wr_length _ _ _ _ E); exact L|].
    intros a. rewrite (rd_wr _ _ _ _ _ E), app_length. cbn [length]. rewrite R.
    destruct (Z.eqb_spec (to + k) a) as [<-|N].
    + replace (_ && _) with true by lia. rewrite <- Ev. f_equal. lia.
    + replace (a <? to + Z.of_nat (length done + 1)) with (a <? to + Z.of_nat (length done)) by lia. reflexivity.
  - exists px'. split; [exact E|]. split; [exact L|]. intros a. rewrite R, zseq_length, Z2Nat.id by lia. reflexivity.
Qed.

Section pattern.
Variables (imIn imOut : img) (x0 y0 w h : Z).
Hypothesis WI : wf_img imIn.
Hypothesis WO : wf_img imOut.
Hypothesis Hw : 0 < w.
Hypothesis Hh : 0 < h.
Hypothesis Hx : 0 <= x0 /\ x0 + w <= width imIn.
Hypothesis Hy : 0 <= y0 /\ y0 + h <= height imIn.
Hypothesis Hd : 0 < depth imIn.
Hypothesis DO : 0 < width imOut /\ 0 < depth imOut.

Local Notation wo := (width imOut).
Local Notation ho := (height imOut).

(** The address of a pixel of the first slice of the output, and the value it must get. *)
Definition oaddr (x y : Z) : Z := x + wo * y.
Definition tile (x y : Z) : option Z := rd (pixs imIn) (x0 + x mod w + width imIn * (y0 + y mod h)).

(** The rows in [R] hold the tiles; the rest of the array is as it was. *)
Definition rows (R : Z -> Prop) (px : list Z) : Prop :=
  length px = length (pixs imOut) /\
  (forall x y, 0 <= x < wo -> 0 <= y < ho -> R y -> rd px (oaddr x y) = tile x y) /\
  (forall a, (forall x y, 0 <= x < wo -> 0 <= y < ho -> R y -> a <> oaddr x y) -> rd px a = rd (pixs imOut) a).

Lemma oaddr_range x y : 0 <= x < wo -> 0 <= y < ho -> 0 <= oaddr x y < Z.of_nat (length (pixs imOut)).
Proof using WO DO.
  intros Rx Ry. destruct WO as ((D1 & D2 & D3) & L). rewrite L. unfold oaddr, width, height, depth in *. split; [nia|].
  set (a := dw (sz imOut)) in *. set (b := dh (sz imOut)) in *. set (c := dd (sz imOut)) in *.
  assert (x + a * y < a * b) by nia. assert (a * b <= a * b * c) by nia. lia.
Qed.

Lemma oaddr_inj x y x' y' : 0 <= x < wo -> 0 <= x' < wo -> oaddr x y = oaddr x' y' -> x = x' /\ y = y'.
Proof using. unfold oaddr. intros H1 H2 E. assert (y = y') by nia. subst. lia. Qed.

Lemma out_access y : 0 <= y < ho -> slice_access (sz imOut) 0 y 0 = Some (oaddr 0 y).
Proof using WO DO.
  intros Ry. rewrite slice_access_wf; [|apply WO|unfold inside, width, height, depth in *; lia].
  unfold voxel_offset, oaddr, width. f_equal. lia.
Qed.
Lemma in_access y : 0 <= y < h -> slice_access (sz imIn) x0 (y0 + y) 0 = Some (x0 + width imIn * (y0 + y)).
Proof using WI Hx Hy Hd Hw Hh.
  intros Ry. rewrite slice_access_wf; [|apply WI|unfold inside, width, height, depth in *; lia].
  unfold voxel_offset, width. f_equal. lia.
Qed.

Lemma in_row_range y : 0 <= y < h -> 0 <= x0 + width imIn * (y0 + y) /\ x0 + width imIn * (y0 + y) + w <= Z.of_nat (length (pixs imIn)).
Proof using WI Hx Hy Hd Hw Hh.
  intros Ry. destruct WI as ((D1 & D2 & D3) & L). rewrite L. unfold width, height, depth in *.
  set (a := dw (sz imIn)) in *. set (b := dh (sz imIn)) in *. set (c := dd (sz imIn)) in *. split; [nia|].
  assert (a * (y0 + y) + a <= a * b) by nia. assert (a * b <= a * b * c) by nia. lia.
Qed.

(** One row of tiles from the input. *)
Definition x_row (nXfull xPad : Z) (px : list Z) (j : Z) : option (list Z) :=
  option_bind (slice_access (sz imIn) x0 (y0 + j) 0) (fun lineIn =>
  option_bind (slice_access (sz imOut) 0 j 0) (fun lineOut =>
  option_bind (fold_opt (fun px i => copy_to (pixs imIn) lineIn w px (lineOut + i * w)) (zseq nXfull) px) (fun px =>
  copy_to (pixs imIn) lineIn xPad px (lineOut + Z.max 0 nXfull * w)))).

Lemma x_row_ok nXfull xPad (R : Z -> Prop) px j : 0 <= nXfull -> 0 <= xPad < w -> nXfull * w + xPad = wo -> 0 <= j < h -> j < ho -> ~ R j ->
  rows R px -> exists px', x_row nXfull xPad px j = Some px' /\ rows (fun y => R y \/ y = j) px'.
Proof using WI WO Hx Hy Hd Hw Hh DO.
  intros Hn Hp En Hj Hjo Nj (L & V & K). unfold x_row. rewrite in_access, out_access by lia. cbn [option_bind].
  destruct (in_row_range j Hj) as (I1 & I2). set (lin := x0 + width imIn * (y0 + j)) in *.
  assert (oaddr 0 j + wo <= Z.of_nat (length (pixs imOut)) /\ 0 <= oaddr 0 j) as (O1 & O2).
  { pose proof (oaddr_range (wo - 1) j ltac:(lia) ltac:(lia)). pose proof (oaddr_range 0 j ltac:(lia) ltac:(lia)). unfold oaddr in *. lia. }
  destruct (fold_opt_inv (fun done px' => length px' = length px /\
      forall a, rd px' a = if (oaddr 0 j <=? a) && (a <? oaddr 0 j + Z.of_nat (length done) * w) then rd (pixs imIn) (lin + (a - oaddr 0 j) mod w) else rd px a)
    (fun px i => copy_to (pixs imIn) lin w px (oaddr 0 j + i * w)) (zseq nXfull) px) as (px1 & E1 & L1 & R1).
  - split; [reflexivity|]. intros a. cbn [length]. replace (_ && _) with false by lia. reflexivity.
  - intros done k todo b El (Lb & Rb).
    assert (k = Z.of_nat (length done) /\ k < nXfull) as (Ek & Hk).
    { assert (rd (zseq nXfull) (Z.of_nat (length done)) = Some k) as Q. { rewrite El, rd_app. rewrite Z.ltb_irrefl, Z.sub_diag. reflexivity. }
      pose proof (rd_Some_range _ _ _ Q) as Q2. rewrite zseq_length in Q2. rewrite rd_zseq in Q by lia. injection Q as Q. lia. }
    assert (0 <= k * w /\ k * w + w <= nXfull * w) as (Q1 & Q2) by (clear - Hw Hk Ek; nia).
    destruct (copy_to_ok (pixs imIn) lin w b (oaddr 0 j + k * w)) as (b' & E & L' & R'); try lia.
    exists b'. split; [exact E|]. split; [lia|]. intros a. rewrite R', Rb, app_length. cbn [length].
    replace (Z.of_nat (length done + 1) * w) with (k * w + w) by lia. replace (Z.of_nat (length done) * w) with (k * w) by lia.
    assert (0 <= k * w) by nia.
    destruct (Z_lt_dec a (oaddr 0 j + k * w)); [replace (oaddr 0 j + k * w <=? a) with false by lia|destruct (Z_lt_dec a (oaddr 0 j + k * w + w))].
    + cbn [andb]. replace (a <? oaddr 0 j + (k * w + w)) with (a <? oaddr 0 j + k * w) by lia. reflexivity.
    + replace (_ && _) with true by lia. replace (_ && _) with true by lia. f_equal. f_equal.
      apply (Z.mod_unique _ _ k); [left; lia|lia].
    + replace (_ && _) with false by lia. replace (_ && _) with false by lia. replace (_ && _) with false by lia. reflexivity.
  - rewrite E1. cbn [option_bind]. rewrite zseq_length, Z2Nat.id in R1 by lia. rewrite Z.max_r by lia.
    destruct (copy_to_ok (pixs imIn) lin xPad px1 (oaddr 0 j + nXfull * w)) as (px2 & E2 & L2 & R2); try lia.
    exists px2. split; [exact E2|].
    assert (forall a, rd px2 a = if (oaddr 0 j <=? a) && (a <? oaddr 0 j + wo) then rd (pixs imIn) (lin + (a - oaddr 0 j) mod w) else rd px a) as R3.
    { intros a. rewrite R2, R1. assert (0 <= nXfull * w) by nia.
      destruct (Z_lt_dec a (oaddr 0 j + nXfull * w)); [|destruct (Z_lt_dec a (oaddr 0 j + nXfull * w + xPad))].
      - replace (oaddr 0 j + nXfull * w <=? a) with false by lia. cbn [andb]. replace (a <? oaddr 0 j + wo) with (a <? oaddr 0 j + nXfull * w) by lia. reflexivity.
      - replace (_ && _) with true by lia. replace (_ && _) with true by lia. f_equal. f_equal. apply (Z.mod_unique _ _ nXfull); [left; lia|lia].
      - replace (_ && _) with false by lia. replace (_ && _) with false by lia. replace (_ && _) with false by lia. reflexivity. }
    split; [lia|]. split.
    + intros x y Rx Ry [Hr| ->].
      * rewrite R3. replace (_ && _) with false; [apply V; assumption|]. symmetry. apply andb_false_iff.
        destruct (Z.leb_spec (oaddr 0 j) (oaddr x y)); [|auto]. destruct (Z.ltb_spec (oaddr x y) (oaddr 0 j + wo)); [|auto]. exfalso. apply Nj.
        replace j with y; [exact Hr|]. unfold oaddr in *. nia.
      * rewrite R3. replace (_ && _) with true by (unfold oaddr; lia). unfold tile. f_equal. unfold lin, oaddr.
        replace (x + wo * j - (0 + wo * j)) with x by lia. rewrite (Z.mod_small j h) by lia. lia.
    + intros a Ha. rewrite R3. replace (_ && _) with false.
      * apply K. intros x y Rx Ry Hr. apply Ha; auto.
      * symmetry. apply andb_false_iff. destruct (Z.leb_spec (oaddr 0 j) a); [|auto]. destruct (Z.ltb_spec a (oaddr 0 j + wo)); [|auto]. exfalso.
        apply (Ha (a - oaddr 0 j) j); [lia|lia|auto|]. unfold oaddr. lia.
Qed.

(** One row copied from the first band. *)
Definition y_row (len n : Z) (px : list Z) (j : Z) : option (list Z) :=
  option_bind (slice_access (sz imOut) 0 j 0) (fun lineIn =>
  option_bind (slice_access (sz imOut) 0 (n * h + j) 0) (fun lineOut =>
  copy_within px lineIn len lineOut)).

Lemma y_row_ok n (R : Z -> Prop) px j : 0 < n -> 0 <= j < h -> n * h + j < ho -> R j -> ~ R (n * h + j) ->
  rows R px -> exists px', y_row wo n px j = Some px' /\ rows (fun y => R y \/ y = n * h + j) px'.
Proof using WO Hh DO.
  intros Hn Hj Hjo Rj Nj (L & V & K). unfold y_row. assert (h <= n * h) by nia. rewrite !out_access by lia. cbn [option_bind].
  set (t := n * h + j) in *.
  assert (oaddr 0 t + wo <= Z.of_nat (length (pixs imOut))) as O1.
  { pose proof (oaddr_range (wo - 1) t ltac:(lia) ltac:(lia)). unfold oaddr in *. lia. }
  assert (0 <= oaddr 0 j) as O2 by (apply oaddr_range; lia).
  destruct (copy_within_ok px (oaddr 0 j) wo (oaddr 0 t)) as (px' & E & L' & R'); try (lia); [unfold oaddr; nia|].
  exists px'. split; [exact E|]. split; [lia|]. split.
  - intros x y Rx Ry [Hr| ->].
    + rewrite R'. replace (_ && _) with false; [apply V; assumption|]. symmetry. apply andb_false_iff.
      destruct (Z.leb_spec (oaddr 0 t) (oaddr x y)); [|auto]. destruct (Z.ltb_spec (oaddr x y) (oaddr 0 t + wo)); [|auto]. exfalso. apply Nj.
      replace t with y; [exact Hr|]. unfold oaddr in *. nia.
    + rewrite R'. replace (_ && _) with true by (unfold oaddr; lia).
      replace (oaddr 0 j + (oaddr x t - oaddr 0 t)) with (oaddr x j) by (unfold oaddr; lia). rewrite V by (lia || assumption).
      unfold tile. f_equal. f_equal. f_equal. f_equal. unfold t. rewrite (Z.add_comm (n * h) j), Z.mod_add by lia. reflexivity.
  - intros a Ha. rewrite R'. replace (_ && _) with false.
    + apply K. intros x y Rx Ry Hr. apply Ha; auto.
    + symmetry. apply andb_false_iff. destruct (Z.leb_spec (oaddr 0 t) a); [|auto]. destruct (Z.ltb_spec a (oaddr 0 t + wo)); [|auto]. exfalso.
      apply (Ha (a - oaddr 0 t) t); [lia|lia|auto|]. unfold oaddr. lia.
Qed.

Lemma rows_ext (R R' : Z -> Prop) px : (forall y, 0 <= y < ho -> (R y <-> R' y)) -> rows R px -> rows R' px.
Proof using.
  intros H (L & V & K). split; [exact L|]. split.
  - intros x y Rx Ry Hr. apply V; try assumption. apply H; assumption.
  - intros a Ha. apply K. intros x y Rx Ry Hr. apply Ha; try assumption. apply H; assumption.
Qed.

(** A band of rows, in any order. *)
Lemma band_ok (f : list Z -> Z -> option (list Z)) (o : Z -> Z) order (R : Z -> Prop) px : NoDup order ->
  (forall i j, In i order -> In j order -> o i = o j -> i = j) ->
  (forall j, In j order -> ~ R (o j)) ->
  (forall (R' : Z -> Prop) px j, In j order -> (forall y, R y -> R' y) -> ~ R' (o j) -> rows R' px -> exists px', f px j = Some px' /\ rows (fun y => R' y \/ y = o j) px') ->
  rows R px -> exists px', fold_opt f order px = Some px' /\ rows (fun y => R y \/ exists j, In j order /\ y = o j) px'.
Proof using.
  intros ND Inj NR Hf H0.
  destruct (fold_opt_inv (fun done px' => rows (fun y => R y \/ exists j, In j done /\ y = o j) px') f order px) as (px' & E & H).
  - eapply rows_ext; [|exact H0]. intros y _. split; [auto|]. intros [?|(j & [] & _)]; assumption.
  - intros done j todo b El Hb.
    assert (In j order) as Ij by (rewrite El; apply in_elt).
    destruct (Hf (fun y => R y \/ exists j, In j done /\ y = o j) b j Ij) as (b' & E & Hb'); [auto| |exact Hb|].
    + intros [Hr|(i & Hi & Eo)]; [exact (NR j Ij Hr)|]. assert (j = i) as <-. { apply Inj; [exact Ij|rewrite El; apply in_app_iff; auto|exact Eo]. }
      rewrite El in ND. apply NoDup_remove_2 in ND. apply ND. apply in_app_iff; auto.
    + exists b'. split; [exact E|]. eapply rows_ext; [|exact Hb']. intros y _. split.
      * intros [[?|(i & Hi & Eo)]| ->]; [auto|right; exists i; split; [apply in_app_iff; auto|exact Eo]|right; exists j; split; [apply in_app_iff; cbn; auto|reflexivity]].
      * intros [?|(i & Hi & Eo)]; [auto|]. apply in_app_iff in Hi as [Hi|[<-|[]]]; [left; right; eauto|right; exact Eo].
  - eauto.
Qed.
End pattern.

Lemma perm_facts n l : Permutation l (zseq n) -> NoDup l /\ forall j, In j l <-> 0 <= j < n.
Proof.
  intros P. split; [eapply Permutation_NoDup; [apply Permutation_sym; exact P|apply zseq_NoDup]|]. intros j. rewrite <- zseq_In.
  split; apply Permutation_in; [exact P|apply Permutation_sym; exact P].
Qed.

Lemma copyPattern_ok sched imIn x0 y0 w h imOut nx ny : wf_img imIn -> wf_img imOut ->
  (forall k n, Permutation (sched k (zseq n)) (zseq n)) ->
  0 < w -> 0 < h -> 0 <= x0 -> x0 + w <= width imIn -> 0 <= y0 -> y0 + h <= height imIn -> 0 < depth imIn ->
  0 < width imOut < 2 ^ 31 -> h <= height imOut < 2 ^ 31 -> 0 < depth imOut ->
  width imOut <= nx * w -> height imOut <= ny * h ->
  exists im', copyPattern sched imIn x0 y0 w h imOut nx ny = Some (1, im') /\ tiled imIn x0 y0 w h imOut im'.
Proof.
  intros WI WO PS Hw Hh Hx1 Hx2 Hy1 Hy2 HdI HwO HhO HdO Hnx Hny. unfold copyPattern.
  replace ((w =? 0) || (h =? 0)) with false by lia.
  assert (forall a b n, 0 < a -> 0 < b -> a <= n * b -> let q := Z.min ((a + b - 1) / b) n in let p := a mod b in
    (if p =? 0 then q else q - 1) * b + p = a /\ 0 <= (if p =? 0 then q else q - 1) /\ q - (if p =? 0 then q else q - 1) = (if p =? 0 then 0 else 1)) as DIV.
  { clear. intros a b n Ha Hb Hn. pose proof (Z.div_mod a b ltac:(lia)) as E. pose proof (Z.mod_pos_bound a b Hb) as R.
    assert (0 <= a / b) by (apply Z.div_pos; lia). cbv zeta. set (p := a mod b) in *. set (t := a / b) in *.
    assert ((a + b - 1) / b = if p =? 0 then t else t + 1) as Q.
    { destruct (Z.eqb_spec p 0); symmetry; [apply (Z.div_unique _ _ _ (b - 1)); lia|apply (Z.div_unique _ _ _ (p - 1)); lia]. }
    rewrite Q. assert (t <= n) by nia. destruct (Z.eqb_spec p 0) as [Ep|Np]; [rewrite Z.min_l by lia; lia|].
    assert (t + 1 <= n) by nia. rewrite Z.min_l by lia. lia. }
  destruct (DIV (width imOut) w nx ltac:(lia) ltac:(lia) Hnx) as (EX & PX & _).
  destruct (DIV (height imOut) h ny ltac:(lia) ltac:(lia) Hny) as (EY & PY & DY). clear DIV.
  set (nY := Z.min ((height imOut + h - 1) / h) ny) in *. set (xPad := width imOut mod w) in *. set (yPad := height imOut mod h) in *.
  set (nXfull := if xPad =? 0 then Z.min ((width imOut + w - 1) / w) nx else Z.min ((width imOut + w - 1) / w) nx - 1) in *.
  set (nYfull := if yPad =? 0 then nY else nY - 1) in *.
  pose proof (Z.mod_pos_bound (width imOut) w Hw) as RX. fold xPad in RX.
  pose proof (Z.mod_pos_bound (height imOut) h Hh) as RY. fold yPad in RY.
  cbv zeta. rewrite (to_size_id (nXfull * w + xPad)) by (rewrite EX; lia). rewrite EX.
  assert (1 <= nYfull) as NY1 by nia.
  assert (HX : 0 <= x0 /\ x0 + w <= width imIn) by lia. assert (HY : 0 <= y0 /\ y0 + h <= height imIn) by lia. assert (HO : 0 < width imOut /\ 0 < depth imOut) by lia.
  destruct (perm_facts _ _ (PS 0 h)) as (ND0 & I0).
  destruct (band_ok imIn imOut x0 y0 w h (x_row imIn imOut x0 y0 w nXfull xPad) (fun j => j) (sched 0 (zseq h)) (fun _ => False) (pixs imOut)) as (px1 & E1 & R1).
  - exact ND0.
  - auto.
  - auto.
  - intros R' px j Hj _ Nj Hr. apply I0 in Hj. apply x_row_ok; try assumption; lia.
  - split; [reflexivity|]. split; [intros; contradiction|reflexivity].
  - unfold x_row in E1. rewrite E1. cbn [option_bind]. clear E1.
    apply (rows_ext imIn imOut x0 y0 w h _ (fun y => y < 1 * h)) in R1.
    2: { intros y Hy. split; [intros [[]|(j & Hj & ->)]; apply I0 in Hj; lia|]. intros. right. exists y. split; [apply I0; lia|reflexivity]. }
    (* one band, then the next *)
    assert (forall n px cnt, 1 <= n -> n * h + cnt <= height imOut -> 0 <= cnt <= h -> rows imIn imOut x0 y0 w h (fun y => y < n * h) px ->
      exists px', fold_opt (y_row imOut h (width imOut) n) (sched n (zseq cnt)) px = Some px' /\ rows imIn imOut x0 y0 w h (fun y => y < n * h + cnt) px') as BAND.
    { intros n px cnt Hn Hb Hc Hr. destruct (perm_facts _ _ (PS n cnt)) as (ND & I).
      destruct (band_ok imIn imOut x0 y0 w h (y_row imOut h (width imOut) n) (fun j => n * h + j) (sched n (zseq cnt)) (fun y => y < n * h) px) as (px' & E & R); try assumption.
      - intros; lia.
      - intros j Hj. apply I in Hj. lia.
      - intros R' px' j Hj Hs Nj Hr'. apply I in Hj. apply y_row_ok; try assumption; try lia. apply Hs. nia.
      - exists px'. split; [exact E|]. eapply rows_ext; [|exact R]. intros y Hy. split.
        + intros [?|(j & Hj & ->)]; [lia|]. apply I in Hj. lia.
        + intros. destruct (Z_lt_dec y (n * h)); [auto|]. right. exists (y - n * h). split; [apply I; lia|lia]. }
    destruct (fold_opt_inv (fun done px' => rows imIn imOut x0 y0 w h (fun y => y < (1 + Z.of_nat (length done)) * h) px')
      (fun px n => fold_opt (y_row imOut h (width imOut) n) (sched n (zseq h)) px) (zrange 1 (nYfull - 1)) px1) as (px2 & E2 & R2).
    + exact R1.
    + intros done n todo b El Hb.
      assert (n = 1 + Z.of_nat (length done) /\ n < nYfull) as (En & Hn).
      { assert (rd (zrange 1 (nYfull - 1)) (Z.of_nat (length done)) = Some n) as Q. { rewrite El, rd_app. rewrite Z.ltb_irrefl, Z.sub_diag. reflexivity. }
        pose proof (rd_Some_range _ _ _ Q) as Q2. rewrite zrange_length in Q2. rewrite rd_zrange in Q by lia. assert (1 + Z.of_nat (length done) = n) by congruence. clear - H Q2 NY1; lia. }
      rewrite <- En in Hb. destruct (BAND n b h) as (b' & E & R); try lia; [nia|exact Hb|].
      exists b'. split; [exact E|]. eapply rows_ext; [|exact R]. intros y _. cbv beta. rewrite app_length. cbn [length]. rewrite En. lia.
    + unfold y_row in E2 at 1. rewrite E2. cbn [option_bind]. clear E2. rewrite zrange_length, Z2Nat.id in R2 by lia.
      replace ((1 + (nYfull - 1)) * h) with (nYfull * h) in R2 by lia.
      assert (exists px3, fold_opt (fun px n => fold_opt (y_row imOut h (width imOut) n) (sched n (zseq yPad)) px) (zrange nYfull (nY - nYfull)) px2 = Some px3 /\
        rows imIn imOut x0 y0 w h (fun _ => True) px3) as (px3 & E3 & R3).
      { rewrite DY. destruct (Z.eqb_spec yPad 0) as [Ep|Np].
        - rewrite zrange_nil by lia. exists px2. split; [reflexivity|]. eapply rows_ext; [|exact R2]. intros y Hy. cbv beta. split; [trivial|lia].
        - rewrite zrange_cons by lia. rewrite zrange_nil by lia. cbn [fold_opt].
          destruct (BAND nYfull px2 yPad) as (px3 & E3 & R3); try lia; [exact R2|]. rewrite E3. exists px3. split; [reflexivity|].
          eapply rows_ext; [|exact R3]. intros y Hy. cbv beta. split; [trivial|lia]. }
      unfold y_row in E3. rewrite E3. cbn [option_bind]. exists (Img (sz imOut) px3). split; [reflexivity|].
      destruct R3 as (L3 & V3 & K3). pose proof WO as (WD & LO).
      split; [reflexivity|]. split; [split; [exact WD|cbn; lia]|]. intros x y z o (I & E). cbn [sz pixs] in *. pose proof I as (Ix & Iy & Iz).
      destruct (Z.eq_dec z 0) as [->|Nz].
      * left. split; [reflexivity|]. split.
        -- unfold inside. pose proof (Z.mod_pos_bound x w Hw). pose proof (Z.mod_pos_bound y h Hh). unfold width, height, depth in *. lia.
        -- rewrite <- E. specialize (V3 x y Ix Iy Logic.I). unfold oaddr, tile, width in V3. unfold voxel_offset.
           replace (x + dw (sz imOut) * (y + dh (sz imOut) * 0)) with (x + dw (sz imOut) * y) by lia. rewrite V3. f_equal. lia.
      * right. split; [exact Nz|]. split; [exact I|]. rewrite <- E. symmetry. apply K3. intros x' y' Rx Ry _ Ea.
        assert (voxel_offset (dw (sz imOut)) (dh (sz imOut)) x y z = voxel_offset (dw (sz imOut)) (dh (sz imOut)) x' y' 0) as Ev.
        { rewrite Ea. unfold oaddr, voxel_offset, width. lia. }
        apply voxel_inj in Ev; [lia|exact I|]. unfold inside, width, height, depth in *. lia.
Qed.
