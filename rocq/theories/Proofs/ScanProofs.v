(** The scan of the neighbourhoods. *)
From Verif Require Export Spec.ScanSpec Proofs.NeighborFacts Proofs.GraphProofs3.

Lemma zseq_split a b : 0 <= a <= b -> zseq b = zseq a ++ zbetween a b.
Proof.
  intros H. unfold zbetween, zseq. replace (Z.to_nat b) with (Z.to_nat a + Z.to_nat (b - a))%nat by lia. rewrite seq_app, map_app. cbn [Nat.add].
  assert (K : forall n k j, map Z.of_nat (seq (k + j) n) = map (fun i => Z.of_nat k + i) (map Z.of_nat (seq j n))).
  { clear. induction n as [|n IH]; intros k j; cbn; [reflexivity|]. f_equal; [lia|]. rewrite <- IH. f_equal. f_equal. lia. }
  specialize (K (Z.to_nat (b - a)) (Z.to_nat a) 0%nat). rewrite Nat.add_0_r in K. rewrite K. apply (f_equal2 (@app Z)); [reflexivity|]. apply map_ext. intros i. lia.
Qed.
Lemma zbetween_In a b i : In i (zbetween a b) <-> a <= i < b.
Proof. unfold zbetween. rewrite in_map_iff. split; [intros (j & <- & H); apply zseq_In in H; lia|]. intros H. exists (i - a). split; [lia|]. apply zseq_In. lia. Qed.
Lemma zbetween_app a b c : a <= b <= c -> zbetween a b ++ zbetween b c = zbetween a c.
Proof.
  intros H. unfold zbetween. rewrite (zseq_split (b - a) (c - a)) by lia. rewrite map_app. f_equal. unfold zbetween. rewrite map_map. replace (c - a - (b - a)) with (c - b) by lia. apply map_ext. intros i. lia.
Qed.
Lemma zbetween_nil a b : b <= a -> zbetween a b = [].
Proof. intros H. unfold zbetween, zseq. replace (Z.to_nat (b - a)) with 0%nat by lia. reflexivity. Qed.

Lemma xmin_spec se p : In p (se_points se) -> se_xmin se <= px_ p.
Proof.
  unfold se_xmin. assert (K : forall l m, (fold_left (fun m p => if px_ p <? m then px_ p else m) l m <= m) /\ forall p, In p l -> fold_left (fun m p => if px_ p <? m then px_ p else m) l m <= px_ p).
  { clear. induction l as [|q l IH]; intros m; cbn [fold_left]; [split; [lia|intros p []]|]. destruct (IH (if px_ q <? m then px_ q else m)) as (A & B). destruct (px_ q <? m) eqn:E; (split; [lia|]; intros p [->|Hp]; [lia|apply B; exact Hp]). }
  apply K.
Qed.
Lemma xmin_low se k : k <= 2 ^ 31 - 1 -> (forall p, In p (se_points se) -> k <= px_ p) -> k <= se_xmin se.
Proof.
  unfold se_xmin. generalize (2 ^ 31 - 1) as m. induction (se_points se) as [|q l IH]; intros m Hm H; cbn [fold_left]; [exact Hm|]. apply IH; [|intros p Hp; apply H; right; exact Hp]. pose proof (H q (or_introl eq_refl)). destruct (px_ q <? m); lia.
Qed.
Lemma xmax_spec se p : In p (se_points se) -> px_ p <= se_xmax se.
Proof.
  unfold se_xmax. assert (K : forall l m, (m <= fold_left (fun m p => if px_ p >? m then px_ p else m) l m) /\ forall p, In p l -> px_ p <= fold_left (fun m p => if px_ p >? m then px_ p else m) l m).
  { clear. induction l as [|q l IH]; intros m; cbn [fold_left]; [split; [lia|intros p []]|]. destruct (IH (if px_ q >? m then px_ q else m)) as (A & B). destruct (px_ q >? m) eqn:E; (split; [lia|]; intros p [->|Hp]; [lia|apply B; exact Hp]). }
  apply K.
Qed.
Lemma xmax_high se k : - 2 ^ 31 <= k -> (forall p, In p (se_points se) -> px_ p <= k) -> se_xmax se <= k.
Proof.
  unfold se_xmax. generalize (- 2 ^ 31) as m. induction (se_points se) as [|q l IH]; intros m Hm H; cbn [fold_left]; [exact Hm|]. apply IH; [|intros p Hp; apply H; right; exact Hp]. pose proof (H q (or_introl eq_refl)). destruct (px_ q >? m); lia.
Qed.

Lemma insideb3_iff s x y z : insideb3 s (x, y, z) = true <-> inside s x y z.
Proof. unfold insideb3, inside. lia. Qed.

Lemma shift_bit se y y' : bit (se_odd se && negb (y mod 2 =? 0) && oddb (y' + 1)) = if se_odd se && Z.odd y && Z.even y' then 1 else 0.
Proof. rewrite odd_mod2, oddb_odd, Z.odd_add. change (Z.odd 1) with true. rewrite <- (Z.negb_even y'). destruct (se_odd se), (Z.odd y), (Z.even y'); reflexivity. Qed.

Lemma filter_all {A} (P : A -> bool) l : forallb P l = true -> filter P l = l.
Proof. induction l as [|a l IH]; cbn; [reflexivity|]. intros H. apply andb_true_iff in H as (-> & H). rewrite IH by exact H. reflexivity. Qed.

Section Line.
Variables (se : strelt) (s : dims) (Hs : int_sized s) (Hw : 0 < dw s) (Hp : int_points se) (Hx : forall p, In p (se_points se) -> - dw s <= px_ p <= dw s).
Variables (y z : Z) (Hy : 0 <= y < dh s) (Hz : 0 <= z < dd s).
Let pts := line_points se s y z.

Lemma border_ok x : 0 <= x < dw s -> border_offsets s pts x = map (fun q => scan_pos s q - scan_pos s (x, y, z)) (nbhd se s (x, y, z)).
Proof.
  intros Ix. unfold border_offsets, pts, line_points, nbhd. pose proof Hs as (Bw & Bh & Bd & Bn).
  assert (HP : forall p, In p (se_points se) -> Z.abs (px_ p) < 2 ^ 30 /\ Z.abs (py_ p) < 2 ^ 30 /\ Z.abs (pz_ p) < 2 ^ 30 /\ - dw s <= px_ p <= dw s) by (intros p H; specialize (Hp p H); specialize (Hx p H); tauto). revert HP. generalize (se_points se) as l. induction l as [|p l IH]; intros HP; [reflexivity|].
  cbn [flat_map map filter]. rewrite filter_app, map_app, IH by (intros q Hq; apply HP; right; exact Hq). clear IH. destruct (HP p (or_introl eq_refl)) as (Px & Py & Pz & Pw). clear HP. cbv zeta. rewrite (to_int_id (y + py_ p)), (to_int_id (z + pz_ p)), (to_int_id (dh s)), (to_int_id (dd s)) by lia.
  set (sh := if se_odd se && Z.odd y && Z.even (y + py_ p) then 1 else 0). assert (Sh : 0 <= sh <= 1) by (unfold sh; match goal with |- context [if ?c then _ else _] => destruct c end; lia).
  assert (place se (x, y, z) p = (x + px_ p + sh, y + py_ p, z + pz_ p)) as -> by reflexivity. destruct (insideb3 s (x + px_ p + sh, y + py_ p, z + pz_ p)) eqn:HI.
  - apply insideb3_iff in HI. pose proof HI as (Jx & Jy & Jz). replace (_ && _ && _ && _) with true by lia. rewrite shift_bit. fold sh. cbn [filter fst]. rewrite (to_int_id (x + (px_ p + sh))), (to_int_id (dw s)) by lia. replace (_ && _) with true by lia. cbn [map snd app]. f_equal.
    assert (I0 : inside s x y z) by (split; [exact Ix|split; assumption]). pose proof (inside_range _ _ _ _ I0) as R0. pose proof (inside_range _ _ _ _ HI) as R1. unfold scan_pos, dOffset.
    assert (E : px_ p + py_ p * dw s + pz_ p * dw s * dh s = voxel_offset (dw s) (dh s) (x + px_ p + sh) (y + py_ p) (z + pz_ p) - voxel_offset (dw s) (dh s) x y z - sh) by (unfold voxel_offset; ring).
    rewrite E, to_int_id by lia. lia.
  - assert (HN : ~ inside s (x + px_ p + sh) (y + py_ p) (z + pz_ p)) by (rewrite <- insideb3_iff; congruence). cbn [map app]. destruct ((y + py_ p >=? 0) && (y + py_ p <? dh s) && (z + pz_ p >=? 0) && (z + pz_ p <? dd s)) eqn:C; [|reflexivity].
    rewrite shift_bit. fold sh. cbn [filter fst]. rewrite (to_int_id (x + (px_ p + sh))), (to_int_id (dw s)) by lia. replace (_ && _) with false; [reflexivity|]. symmetry. unfold inside in HN. lia.
Qed.

Lemma middle_ok x : - se_xmin se <= x -> x < dw s - se_xmax se -> (se_odd se = true -> forall p, In p (se_points se) -> Z.odd (py_ p) = true -> exists q, In q (se_points se) /\ px_ p + 1 <= px_ q) ->
  map snd pts = border_offsets s pts x.
Proof.
  intros H1 H2 Ho. unfold border_offsets. rewrite filter_all; [reflexivity|]. apply forallb_forall. intros (a, o) Ha. cbn [fst]. unfold pts, line_points in Ha. apply in_flat_map in Ha as (p & Hpp & Ha). cbv zeta in Ha. pose proof Hs as (Bw & Bh & Bd & Bn).
  destruct (Hp p Hpp) as (Px & Py & Pz). pose proof (Hx p Hpp) as Pw. rewrite (to_int_id (y + py_ p)), (to_int_id (z + pz_ p)), (to_int_id (dh s)), (to_int_id (dd s)) in Ha by lia.
  destruct ((y + py_ p >=? 0) && (y + py_ p <? dh s) && (z + pz_ p >=? 0) && (z + pz_ p <? dd s)); [|destruct Ha]. destruct Ha as [Ha|[]]. injection Ha as <- _. rewrite shift_bit.
  pose proof (xmin_spec se p Hpp). pose proof (xmax_spec se p Hpp). assert (Sh : px_ p + (if se_odd se && Z.odd y && Z.even (y + py_ p) then 1 else 0) <= se_xmax se).
  { destruct (se_odd se && Z.odd y && Z.even (y + py_ p)) eqn:C; [|lia]. apply andb_true_iff in C as (C & Ev). apply andb_true_iff in C as (O & Od). destruct (Ho O p Hpp) as (q & Hq & Lq).
    - rewrite Z.even_add in Ev. rewrite <- Z.negb_even in Od |- *. destruct (Z.even y), (Z.even (py_ p)); cbn in *; congruence.
    - pose proof (xmax_spec se q Hq). lia. }
  assert (Sl : px_ p <= px_ p + (if se_odd se && Z.odd y && Z.even (y + py_ p) then 1 else 0)) by (match goal with |- context [if ?c then _ else _] => destruct c end; lia).
  set (a := px_ p + (if se_odd se && Z.odd y && Z.even (y + py_ p) then 1 else 0)) in *. assert (- dw s <= se_xmin se) by (apply xmin_low; [lia|intros q Hq; apply Hx; exact Hq]). assert (se_xmax se <= dw s) by (apply xmax_high; [lia|intros q Hq; apply Hx; exact Hq]).
  rewrite (to_int_id (x + a)), (to_int_id (dw s)) by lia. lia.
Qed.
End Line.

Lemma line_visits_ok se s y z : scannable se s -> 0 <= y < dh s -> 0 <= z < dd s ->
  line_visits se s ((z * dh s + y) * dw s) = Some (map (fun x => (scan_pos s (x, y, z), map (fun q => scan_pos s q - scan_pos s (x, y, z)) (nbhd se s (x, y, z)))) (zseq (dw s))).
Proof.
  intros (Hs & Hw & Hp & Hx & (p0 & Hp0 & Hx0) & Ho) Hy Hz. pose proof Hs as (Bw & Bh & Bd & Bn). unfold line_visits. replace ((dw s =? 0) || (dh s =? 0)) with false by lia. cbv zeta.
  assert (((z * dh s + y) * dw s) / (dw s * dh s) = z) as -> by (rewrite <- Z.div_div by lia; rewrite Z.div_mul by lia; rewrite Z.div_add_l by lia; rewrite Z.div_small; lia).
  assert (((z * dh s + y) * dw s) / dw s mod dh s = y) as -> by (rewrite Z.div_mul by lia; rewrite Z.add_comm, Z.mod_add by lia; rewrite Z.mod_small; lia).
  assert (Xm : 0 <= se_xmax se) by (pose proof (xmax_spec se p0 Hp0); lia). assert (XM : se_xmax se <= dw s) by (apply xmax_high; [lia|intros q Hq; apply Hx; exact Hq]).
  assert (Xn : - dw s <= se_xmin se) by (apply xmin_low; [lia|intros q Hq; apply Hx; exact Hq]).
  assert (El : to_size (dw s - se_xmax se) = dw s - se_xmax se) by (unfold to_size; apply Z.mod_small; lia). rewrite El. f_equal.
  set (F := fun x => (scan_pos s (x, y, z), map (fun q => scan_pos s q - scan_pos s (x, y, z)) (nbhd se s (x, y, z)))).
  assert (FB : forall x, 0 <= x < dw s -> ((z * dh s + y) * dw s + x, border_offsets s (line_points se s y z) x) = F x).
  { intros x Ix. unfold F. f_equal; [unfold scan_pos, voxel_offset; ring|]. apply border_ok; assumption. }
  set (c1 := Z.max 0 (- se_xmin se)). set (last := dw s - se_xmax se).
  rewrite (zseq_split c1 (dw s)) by lia. rewrite <- (zbetween_app c1 (Z.max c1 last) (dw s)) by lia. rewrite !map_app. f_equal; [|f_equal].
  - apply map_ext_in. intros x Hi. apply zseq_In in Hi. apply FB. lia.
  - assert (zbetween c1 last = zbetween c1 (Z.max c1 last)) as <-. { destruct (Z.max_spec c1 last) as [(A & ->)|(A & ->)]; [reflexivity|]. rewrite !zbetween_nil by lia. reflexivity. }
    apply map_ext_in. intros x Hi. apply zbetween_In in Hi. rewrite <- FB by lia. f_equal. apply middle_ok; auto; lia.
  - apply map_ext_in. intros x Hi. apply zbetween_In in Hi. apply FB. lia.
Qed.

Lemma fold_opt_map {A B C} (f : B -> C -> option B) (h : A -> C) l : forall b, fold_opt f (map h l) b = fold_opt (fun b a => f b (h a)) l b.
Proof. induction l as [|a l IH]; intros b; cbn; [reflexivity|]. destruct (f b (h a)); [apply IH|reflexivity]. Qed.
Lemma fold_opt_flat {A B C} (f : B -> C -> option B) (h : A -> list C) l : forall b, fold_opt f (flat_map h l) b = fold_opt (fun b a => fold_opt f (h a) b) l b.
Proof. induction l as [|a l IH]; intros b; cbn; [reflexivity|]. rewrite fold_opt_app. destruct (fold_opt f (h a) b); [apply IH|reflexivity]. Qed.
Lemma fold_opt_ext {A B} (f g : B -> A -> option B) l : (forall b a, In a l -> f b a = g b a) -> forall b, fold_opt f l b = fold_opt g l b.
Proof. induction l as [|a l IH]; intros H b; cbn; [reflexivity|]. rewrite (H b a (or_introl eq_refl)). destruct (g b a); [apply IH; intros b' a' Ha; apply H; right; exact Ha|reflexivity]. Qed.

Lemma scan_image_ok {S} (f : S -> Z -> list Z -> option S) se s st : scannable se s ->
  scan_image f se s st = fold_opt (fun st c => f st (scan_pos s c) (map (fun q => scan_pos s q - scan_pos s c) (nbhd se s c))) (raster s) st.
Proof.
  intros H. unfold scan_image, raster. rewrite fold_opt_flat. apply fold_opt_ext. intros b z Hz. apply zseq_In in Hz. rewrite fold_opt_flat. apply fold_opt_ext. intros b' y Hy. apply zseq_In in Hy.
  unfold scan_line. rewrite line_visits_ok by assumption. cbn [option_bind]. rewrite !fold_opt_map. reflexivity.
Qed.

Lemma raster_In s x y z : In (x, y, z) (raster s) <-> inside s x y z.
Proof.
  unfold raster, inside. rewrite in_flat_map. split.
  - intros (c & Hc & H). apply in_flat_map in H as (b & Hb & H). apply in_map_iff in H as (a & E & Ha). injection E as -> -> ->. apply zseq_In in Ha, Hb, Hc. lia.
  - intros H. exists z. split; [apply zseq_In; lia|]. apply in_flat_map. exists y. split; [apply zseq_In; lia|]. apply in_map_iff. exists x. split; [reflexivity|]. apply zseq_In. lia.
Qed.
Lemma nbhd_In se s c x y z : In (x, y, z) (nbhd se s c) <-> inside s x y z /\ exists p, In p (se_points se) /\ (x, y, z) = place se c p.
Proof. unfold nbhd. rewrite filter_In, insideb3_iff, in_map_iff. split; [intros ((p & E & H) & I); split; [exact I|]; exists p; auto|intros (I & p & H & E); split; [exists p; auto|exact I]]. Qed.
