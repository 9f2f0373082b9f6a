From Verif Require Import Spec.PixelSpec Proofs.GeometryFacts.


Lemma to_size_id z : 0 <= z < 2 ^ 64 -> to_size z = z.
Proof. intros. unfold to_size. apply Z.mod_small. assumption. Qed.

Lemma to_size_neg z : - 2 ^ 63 <= z < 0 -> 2 ^ 63 <= to_size z.
Proof.
  intros H. unfold to_size.
  replace z with ((z + 2 ^ 64) + (-1) * 2 ^ 64) by lia.
  rewrite Z.mod_add by lia. rewrite Z.mod_small; lia.
Qed.

Lemma to_off_id z : 0 <= z < 2 ^ 63 -> to_off z = z.
Proof. intros. unfold to_off. rewrite Z.mod_small; lia. Qed.

Lemma inside_range s x y z : inside s x y z -> 0 <= voxel_offset (dw s) (dh s) x y z < dw s * dh s * dd s.
Proof. unfold inside, voxel_offset. intros (Hx & Hy & Hz).
  assert (0 <= y + dh s * z <= dh s * dd s - 1) by nia.
  rewrite <- Z.mul_assoc. generalize dependent (dh s * dd s). intros. nia.
Qed.

Lemma offset_inside s x y z : small s -> inside s x y z ->
  getOffsetFromCoords s x y z = voxel_offset (dw s) (dh s) x y z.
Proof.
  intros Hs Hi. pose proof (inside_range s x y z Hi) as Hr. destruct Hi as (Hx & Hy & Hz).
  destruct Hs as (H1 & H2 & H3 & H4).
  unfold getOffsetFromCoords. rewrite !to_size_id by lia.
  replace (x >=? dw s) with false by lia. replace (y >=? dh s) with false by lia.
  replace (z >=? dd s) with false by lia.
  unfold voxel_offset in *.
  replace (z * dw s * dh s + y * dw s + x) with (x + dw s * (y + dh s * z)) by ring.
  generalize dependent (x + dw s * (y + dh s * z)). intros o Ho.
  rewrite to_size_id by lia. apply to_off_id. lia.
Qed.

Lemma offset_outside s x y z : small s ->
  - 2 ^ 63 <= x < 2 ^ 63 -> - 2 ^ 63 <= y < 2 ^ 63 -> - 2 ^ 63 <= z < 2 ^ 63 ->
  ~ inside s x y z -> getOffsetFromCoords s x y z = -1.
Proof.
  intros (H1 & H2 & H3 & H4) Hx Hy Hz HN. unfold getOffsetFromCoords, inside in *.
  assert (Gx : to_size x >=? dw s = negb ((0 <=? x) && (x <? dw s))).
  { destruct (Z.leb_spec 0 x); [rewrite to_size_id by lia; cbn; lia|pose proof (to_size_neg x); cbn; lia]. }
  assert (Gy : to_size y >=? dh s = negb ((0 <=? y) && (y <? dh s))).
  { destruct (Z.leb_spec 0 y); [rewrite to_size_id by lia; cbn; lia|pose proof (to_size_neg y); cbn; lia]. }
  assert (Gz : to_size z >=? dd s = negb ((0 <=? z) && (z <? dd s))).
  { destruct (Z.leb_spec 0 z); [rewrite to_size_id by lia; cbn; lia|pose proof (to_size_neg z); cbn; lia]. }
  cbv zeta. rewrite Gx, Gy, Gz.
  destruct (negb _) eqn:E1; [reflexivity|]. destruct (negb ((0 <=? y) && _)) eqn:E2; [reflexivity|].
  destruct (negb ((0 <=? z) && _)) eqn:E3; [reflexivity|].
  exfalso. apply HN. lia.
Qed.

Lemma coords_voxel s x y z : small s -> inside s x y z ->
  getCoordsFromOffset s (voxel_offset (dw s) (dh s) x y z) = Some (x, y, z).
Proof.
  intros Hs Hi. pose proof (inside_range s x y z Hi) as Hr. destruct Hi as (Hx & Hy & Hz).
  destruct Hs as (H1 & H2 & H3 & H4).
  unfold getCoordsFromOffset. cbv zeta. rewrite to_size_id by lia.
  replace ((dw s * dh s =? 0) || (dw s =? 0)) with false by nia.
  unfold voxel_offset in *.
  assert (E1 : (x + dw s * (y + dh s * z)) / (dw s * dh s) = z).
  { symmetry. apply Z.div_unique with (r := x + dw s * y); [left; nia|ring]. }
  assert (E2 : (x + dw s * (y + dh s * z)) mod (dw s * dh s) = x + dw s * y).
  { symmetry. apply Z.mod_unique with (q := z); [left; nia|ring]. }
  assert (E3 : (x + dw s * y) / dw s = y).
  { symmetry. apply Z.div_unique with (r := x); [left; lia|ring]. }
  assert (E4 : (x + dw s * (y + dh s * z)) mod dw s = x).
  { symmetry. apply Z.mod_unique with (q := y + dh s * z); [left; lia|ring]. }
  rewrite E1, E2, E3, E4. reflexivity.
Qed.

Lemma voxel_exists s off : small s -> 0 <= off < dw s * dh s * dd s ->
  exists x y z, inside s x y z /\ off = voxel_offset (dw s) (dh s) x y z.
Proof.
  intros (H1 & H2 & H3 & H4) Ho.
  assert (0 < dw s) by nia. assert (0 < dh s) by nia.
  pose proof (Z.div_mod off (dw s) ltac:(lia)) as D1.
  pose proof (Z.mod_pos_bound off (dw s) ltac:(lia)) as M1.
  pose proof (Z.div_mod (off / dw s) (dh s) ltac:(lia)) as D2.
  pose proof (Z.mod_pos_bound (off / dw s) (dh s) ltac:(lia)) as M2.
  exists (off mod dw s), ((off / dw s) mod dh s), (off / dw s / dh s).
  unfold inside, voxel_offset.
  generalize dependent (off mod dw s). generalize dependent ((off / dw s) mod dh s).
  assert (0 <= off / dw s / dh s). { apply Z.div_pos; [apply Z.div_pos|]; lia. }
  assert (off / dw s / dh s < dd s).
  { apply Z.div_lt_upper_bound; [lia|]. apply Z.div_lt_upper_bound; [lia|]. nia. }
  generalize dependent (off / dw s / dh s). generalize dependent (off / dw s).
  intros. split; [lia|]. nia.
Qed.

Lemma coords_offset_roundtrip s off : small s -> 0 <= off < dw s * dh s * dd s ->
  exists x y z, getCoordsFromOffset s off = Some (x, y, z) /\ inside s x y z /\
    getOffsetFromCoords s x y z = off.
Proof.
  intros Hs Ho. destruct (voxel_exists s off Hs Ho) as (x & y & z & Hi & ->).
  exists x, y, z. rewrite coords_voxel, offset_inside by assumption. auto.
Qed.

Lemma slice_access_ok s x y z : small s -> inside s x y z ->
  slice_access s x y z = Some (voxel_offset (dw s) (dh s) x y z).
Proof.
  intros Hs (Hx & Hy & Hz). destruct Hs as (H1 & H2 & H3 & H4).
  unfold slice_access, restruct_slices. rewrite rd_map, rd_zseq by assumption. cbn [option_map option_bind].
  rewrite rd_restruct_lines; [|lia|unfold lineCount; nia]. cbn. f_equal. unfold voxel_offset. ring.
Qed.

Lemma one_line s off : small s -> 0 <= off < dw s * dh s * dd s ->
  exists! i, exists start, rd (restruct_lines s) i = Some start /\ start <= off < start + dw s.
Proof.
  intros Hs Ho. pose proof Hs as (H1 & H2 & H3 & H4). assert (0 < dw s) by nia.
  pose proof (Z.div_mod off (dw s) ltac:(lia)) as D1.
  pose proof (Z.mod_pos_bound off (dw s) ltac:(lia)) as M1.
  assert (0 <= off / dw s < dd s * dh s).
  { split; [apply Z.div_pos; lia|]. apply Z.div_lt_upper_bound; nia. }
  exists (off / dw s). split.
  - exists (off / dw s * dw s). rewrite rd_restruct_lines by (try unfold lineCount; lia). split; [reflexivity|lia].
  - intros i (st & Hr & Hst). pose proof (rd_Some_range _ _ _ Hr) as Hi.
    rewrite restruct_lines_length in Hi by lia. rewrite rd_restruct_lines in Hr by lia.
    injection Hr as <-. symmetry. apply Z.div_unique with (r := off - i * dw s); lia.
Qed.

Lemma getPixel_ok s px x y z : small s -> Z.of_nat (length px) = dw s * dh s * dd s ->
  - 2 ^ 63 <= x < 2 ^ 63 -> - 2 ^ 63 <= y < 2 ^ 63 -> - 2 ^ 63 <= z < 2 ^ 63 ->
  exists v, getPixel_xyz s px x y z = Some v /\
    (inside s x y z -> rd px (voxel_offset (dw s) (dh s) x y z) = Some v) /\ (~ inside s x y z -> v = 0).
Proof.
  intros Hs HL Hx Hy Hz. pose proof Hs as (H1 & H2 & H3 & H4).
  assert (D : inside s x y z \/ ~ inside s x y z) by (unfold inside; lia).
  destruct D as [D|D].
  - pose proof (inside_range _ _ _ _ D) as Hr.
    destruct (rd_in_range px (voxel_offset (dw s) (dh s) x y z)) as [v Hv]; [lia|].
    exists v. split; [|split; tauto]. rewrite <- Hv. unfold getPixel_xyz.
    destruct D as (Dx & Dy & Dz). rewrite !(to_size_id x), !(to_size_id y), !(to_size_id z) by lia.
    replace (_ && _) with true by lia. unfold voxel_offset in *.
    replace (z * dw s * dh s + y * dw s + x) with (x + dw s * (y + dh s * z)) by ring.
    rewrite to_size_id by lia. reflexivity.
  - exists 0. split; [|tauto]. unfold getPixel_xyz. cbv zeta.
    assert (G : forall a b, - 2 ^ 63 <= a < 2 ^ 63 -> 0 <= b < 2 ^ 63 -> (to_size a <? b) = (0 <=? a) && (a <? b)).
    { intros a b Ha Hb. destruct (Z.leb_spec 0 a); [rewrite to_size_id by lia; reflexivity|pose proof (to_size_neg a); cbn; lia]. }
    rewrite !G by assumption. unfold inside in D.
    match goal with |- (if ?b then _ else _) = _ => replace b with false by lia end. reflexivity.
Qed.

Lemma setPixel_getPixel s px x y z v : small s -> Z.of_nat (length px) = dw s * dh s * dd s ->
  inside s x y z ->
  exists px', setPixel_xyz s px x y z v = Some (1, px') /\ length px' = length px /\
    rd px' (voxel_offset (dw s) (dh s) x y z) = Some v /\
    forall k, k <> voxel_offset (dw s) (dh s) x y z -> rd px' k = rd px k.
Proof.
  intros Hs HL D. pose proof Hs as (H1 & H2 & H3 & H4). pose proof (inside_range _ _ _ _ D) as Hr.
  unfold setPixel_xyz. destruct D as (Dx & Dy & Dz).
  rewrite !(to_size_id x), !(to_size_id y), !(to_size_id z) by lia.
  replace (_ && _) with true by lia. unfold voxel_offset in *.
  replace (z * dw s * dh s + y * dw s + x) with (x + dw s * (y + dh s * z)) by ring.
  rewrite to_size_id by lia.
  destruct (wr_Some px (x + dw s * (y + dh s * z)) v) as [px' Hw]; [lia|]. rewrite Hw. cbn.
  exists px'. split; [reflexivity|]. split; [eapply wr_length; eauto|].
  split; intros; rewrite (rd_wr _ _ _ _ _ Hw).
  - rewrite Z.eqb_refl. reflexivity.
  - destruct (Z.eqb_spec (x + dw s * (y + dh s * z)) k); [congruence|reflexivity].
Qed.

Lemma box_off_ok s off : 0 < dw s -> 0 < dh s -> 0 <= off < dw s * dh s * dd s ->
  let b := box_setRef_off (box_new s) off in
  bref b = off /\ inside s (bx b) (by_ b) (bz b) /\ voxel_offset (dw s) (dh s) (bx b) (by_ b) (bz b) = off.
Proof.
  intros Hw Hh Ho. cbn.
  set (x := Z.rem off (dw s)).
  assert (Ex : x = off mod dw s) by (apply Z.rem_mod_nonneg; lia).
  pose proof (Z.div_mod off (dw s) ltac:(lia)) as D1.
  pose proof (Z.mod_pos_bound off (dw s) ltac:(lia)) as M1.
  assert (Eq : Z.quot (off - x) (dw s) = off / dw s).
  { rewrite Ex. replace (off - off mod dw s) with (off / dw s * dw s) by lia. apply Z.quot_mul. lia. }
  rewrite Eq.
  assert (0 <= off / dw s) by (apply Z.div_pos; lia).
  set (y := Z.rem (off / dw s) (dh s)).
  assert (Ey : y = (off / dw s) mod dh s) by (apply Z.rem_mod_nonneg; lia).
  pose proof (Z.div_mod (off / dw s) (dh s) ltac:(lia)) as D2.
  pose proof (Z.mod_pos_bound (off / dw s) (dh s) ltac:(lia)) as M2.
  assert (Eq2 : Z.quot (off / dw s - y) (dh s) = off / dw s / dh s).
  { rewrite Ey. replace (off / dw s - (off / dw s) mod dh s) with (off / dw s / dh s * dh s) by lia. apply Z.quot_mul. lia. }
  rewrite Eq2. rewrite Ex, Ey. split; [reflexivity|].
  unfold inside, voxel_offset.
  assert (0 <= off / dw s / dh s) by (apply Z.div_pos; lia).
  assert (off / dw s / dh s < dd s).
  { apply Z.div_lt_upper_bound; [lia|]. apply Z.div_lt_upper_bound; [lia|]. nia. }
  split; [lia|]. rewrite (Z.add_comm ((off / dw s) mod dh s)), <- D2. lia.
Qed.

Lemma pixelCount_dims s : pixelCount s = dw s * dh s * dd s.
Proof. unfold pixelCount, lineCount. ring. Qed.

Lemma isOffsetInImage_char s off : small s -> - 2 ^ 63 <= off < 2 ^ 63 ->
  (isOffsetInImage s off = true <-> 0 <= off <= dw s * dh s * dd s) /\
  (isOffsetInImage_u s off = true <-> 0 <= off <= dw s * dh s * dd s).
Proof.
  intros (H1 & H2 & H3 & H4) Ho. unfold isOffsetInImage, isOffsetInImage_u. rewrite pixelCount_dims.
  generalize dependent (dw s * dh s * dd s). intros N HN. split.
  - destruct (off <? 0) eqn:E; [lia|]. destruct (off >? N) eqn:E2; lia.
  - destruct (Z_lt_dec off 0).
    + pose proof (to_size_neg off). destruct (to_size off >? N) eqn:E; [split; [discriminate|lia]|lia].
    + rewrite to_size_id by lia. destruct (off >? N) eqn:E2; split; try discriminate; lia.
Qed.

Lemma isCoordsInImage_char s x y z : small s ->
  - 2 ^ 63 <= x < 2 ^ 63 -> - 2 ^ 63 <= y < 2 ^ 63 -> - 2 ^ 63 <= z < 2 ^ 63 ->
  (isCoordsInImage s x y z = true <-> inside s x y z) /\
  (isCoordsInImage_u s x y z = true <-> inside s x y z).
Proof.
  intros (H1 & H2 & H3 & H4) Hx Hy Hz. unfold isCoordsInImage, isCoordsInImage_u, inside. split.
  - destruct (_ || _) eqn:E; [split; [discriminate|lia]|]. destruct ((x >=? _) || _ || _) eqn:E2; split; try discriminate; lia.
  - cbv zeta.
    assert (G : forall a b, - 2 ^ 63 <= a < 2 ^ 63 -> 0 <= b < 2 ^ 63 -> (to_size a >=? b) = negb ((0 <=? a) && (a <? b))).
    { intros a b Ha Hb. destruct (Z.leb_spec 0 a); [rewrite to_size_id by lia; cbn; lia|pose proof (to_size_neg a); cbn; lia]. }
    rewrite !G by assumption.
    match goal with |- (if ?b then _ else _) = _ <-> _ => destruct b eqn:E end; split; try discriminate; lia.
Qed.

Lemma box_props s :
  bref (box_new s) = voxel_offset (bw (box_new s)) (bh (box_new s)) (bx (box_new s)) (by_ (box_new s)) (bz (box_new s)) /\
  (forall b x y z, bref (box_setRef_xyz b x y z) = voxel_offset (bw b) (bh b) x y z) /\
  (forall b dx dy dz, bref (box_shift_pt b dx dy dz) = voxel_offset (bw b) (bh b) (bx b + dx) (by_ b + dy) (bz b + dz)) /\
  (forall off, 0 < dw s -> 0 < dh s -> 0 <= off < dw s * dh s * dd s ->
     let b := box_setRef_off (box_new s) off in
     bref b = off /\ bref b = voxel_offset (bw b) (bh b) (bx b) (by_ b) (bz b) /\ inside s (bx b) (by_ b) (bz b)) /\
  (forall b x y z, box_getOffset b x y z = voxel_offset (bw b) (bh b) x y z) /\
  (forall off, 0 < dw s -> 0 < dh s -> 0 <= off < dw s * dh s * dd s ->
     forall x y z, box_getCoords (box_new s) off = (x, y, z) ->
     inside s x y z /\ voxel_offset (dw s) (dh s) x y z = off).
Proof.
  split; [unfold voxel_offset; cbn; ring|].
  split; [intros; unfold voxel_offset; cbn; ring|].
  split; [intros; unfold voxel_offset; cbn; ring|].
  split.
  { intros off H H0 H1 b. destruct (box_off_ok s off H H0 H1) as (A & B & C).
    split; [exact A|]. split; [|exact B]. symmetry. exact C. }
  split; [intros; unfold voxel_offset, box_getOffset; ring|].
  intros off H H0 H1 x y z E. destruct (box_off_ok s off H H0 H1) as (A & B & C).
  unfold box_getCoords in E. cbn in E, B, C. injection E as <- <- <-. split; assumption.
Qed.

Lemma box_setRef_pt_char b x y z :
  bref (box_setRef_pt b x y z) = voxel_offset (bw b) (bh b) x y z <-> y = 0 \/ bw b = bh b.
Proof.
  unfold voxel_offset. cbn. split.
  - intros E. assert (y * (bh b - bw b) = 0) as F by lia. apply Z.mul_eq_0 in F. lia.
  - intros [->| ->]; ring.
Qed.

Lemma box_shift_xyz_char b dx dy dz :
  bref (box_shift_xyz b dx dy dz) = voxel_offset (bw b) (bh b) (bx b + dx) (by_ b + dy) (bz b + dz)
  <-> by_ b + dy = 0 \/ bw b = 0 \/ bw b = 1.
Proof.
  unfold voxel_offset. cbn. split.
  - intros E. assert ((by_ b + dy) * (bw b * (bw b - 1)) = 0) as F by lia.
    apply Z.mul_eq_0 in F as [F|F]; [lia|]. apply Z.mul_eq_0 in F. lia.
  - intros [H|[H|H]]; rewrite H; ring.
Qed.
