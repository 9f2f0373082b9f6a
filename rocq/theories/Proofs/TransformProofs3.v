From Verif Require Export Proofs.TransformProofs2.

Lemma rot_loop_ok sched imIn out (addr : Z -> Z -> Z) (tx ty : Z -> Z -> Z) :
  legal_sched sched -> wf_img imIn -> wf_img out ->
  let w := dw (sz imIn) in let h := dh (sz imIn) in let d := dd (sz imIn) in
  (forall i j k, inside (sz imIn) i j k -> inside (sz out) (tx i j) (ty i j) k /\
     k * w * h + addr i j = voxel_offset (dw (sz out)) (dh (sz out)) (tx i j) (ty i j) k) ->
  (forall i j k i' j', inside (sz imIn) i j k -> inside (sz imIn) i' j' k -> tx i j = tx i' j' -> ty i j = ty i' j' -> i = i' /\ j = j') ->
  exists px, scatter (fun '(i, j, k) =>
       option_bind (rd (pixs imIn) (k * w * h + (j * w + i))) (fun v => Some (k * w * h + addr i j, v)))
       (sched (grid w h d)) (pixs out) = Some px /\ wf_img (Img (sz out) px) /\
    forall i j k, inside (sz imIn) i j k ->
       forall v, pixel_is (Img (sz out) px) (tx i j) (ty i j) k v <-> pixel_is imIn i j k v.
Proof.
  intros HS Wi Wo w h d HT HI.
  destruct (remap_ok (fun '(i, j, k) =>
       option_bind (rd (pixs imIn) (k * w * h + (j * w + i))) (fun v => Some (k * w * h + addr i j, v)))
     (fun '(i, j, k) => (tx i j, ty i j, k)) (fun c => c) (sched (grid w h d)) imIn (sz out) (pixs out)) as (px & E & W & H).
  - exact Wi.
  - destruct out; exact Wo.
  - intros [[i j] k] Hc. apply HS, grid_In in Hc.
    assert (inside (sz imIn) i j k) as Hi by exact Hc. destruct (HT i j k Hi) as (Ho & Ea).
    split; [exact Hi|]. split; [exact Ho|].
    replace (k * w * h + (j * w + i)) with (voxel_offset w h i j k) by (unfold voxel_offset; ring).
    destruct (pxv_ok imIn i j k Wi Hi) as (_ & Ev). fold w h in Ev. rewrite Ev. cbn [option_bind]. rewrite Ea. reflexivity.
  - intros [[i j] k] [[i' j'] k'] Hc Hc' Et. injection Et as E1 E2 ->. apply HS, grid_In in Hc, Hc'.
    destruct (HI i j k' i' j' Hc Hc' E1 E2) as (-> & ->). reflexivity.
  - exists px. split; [exact E|]. split; [exact W|]. intros i j k Hi. specialize (H (i, j, k)). cbn in H. apply H.
    apply HS, grid_In. exact Hi.
Qed.

Lemma turns_change n im o : turns (S n) im o <-> exists m, turns n im m /\ quarter m o.
Proof.
  replace (S n) with (n + 1)%nat by lia. rewrite turns_add. cbn. split.
  - intros (m & H & m' & Hq & ->). eauto.
  - intros (m & H & Hq). exists m. split; [exact H|]. exists o. auto.
Qed.

Lemma turns2_intro im o : wf_img im -> wf_img o -> sz o = sz im ->
  (forall x y z v, inside (sz im) x y z -> (pixel_is o x y z v <-> pixel_is im (dw (sz im) - 1 - x) (dh (sz im) - 1 - y) z v)) ->
  turns 2 im o.
Proof.
  intros W Wo Es H. destruct (turns_exist 2 im W) as (o' & T). replace o with o'; [exact T|].
  assert (sz o' = sz im) as E'.
  { destruct T as (? & (E1 & _) & ? & (E2 & _) & E3). cbn in E3. subst. rewrite E2, E1. destruct (sz im); reflexivity. }
  apply img_ext; auto; [apply (turns_wf _ _ _ W T)|congruence|]. intros x y z v Hv. pose proof Hv as (Hi & _). rewrite E' in Hi.
  apply H; [exact Hi|]. apply (turns2_is im o' x y z T Hi). exact Hv.
Qed.

Lemma turns3_intro im o : wf_img im -> wf_img o -> sz o = Dims (dh (sz im)) (dw (sz im)) (dd (sz im)) ->
  (forall x y z v, inside (sz o) x y z -> (pixel_is o x y z v <-> pixel_is im (dw (sz im) - 1 - y) x z v)) ->
  turns 3 im o.
Proof.
  intros W Wo Es H. apply turns_change. destruct (turns_exist 2 im W) as (m & T). exists m. split; [exact T|].
  assert (sz m = sz im) as Em.
  { destruct T as (? & (E1 & _) & ? & (E2 & _) & E3). cbn in E3. subst. rewrite E2, E1. destruct (sz im); reflexivity. }
  split; [rewrite Em; exact Es|]. split; [exact Wo|]. intros x y z v Hi. rewrite (H x y z v Hi).
  rewrite Es in Hi. destruct Hi as (Hx & Hy & Hz). cbn in Hx, Hy, Hz. rewrite Em.
  destruct (turns2_is im m y (dh (sz im) - 1 - x) z T) as (_ & P); [unfold inside; lia|]. rewrite P.
  replace (dh (sz im) - 1 - (dh (sz im) - 1 - x)) with x by lia. reflexivity.
Qed.

Lemma rem_mod4 c : 0 <= c -> Z.rem (Z.rem c 4) 4 = c mod 4.
Proof. intros. rewrite !Z.rem_mod_nonneg by (try apply Z.rem_nonneg; lia). apply Z.mod_mod. lia. Qed.

Lemma rotate_ok junk sched imIn count imOut : legal_sched sched -> wf_img imIn -> wf_img imOut -> 0 <= count ->
  (count mod 4 = 1 -> dw (sz imIn) = dh (sz imIn)) ->
  exists out, rotateX90 junk sched imIn count imOut = Some (1, out) /\ turns (Z.to_nat (count mod 4)) imIn out.
Proof.
  intros HS Wi Wo Hc Hsq. unfold rotateX90. rewrite rem_mod4 by exact Hc. unfold width, height, depth.
  pose proof Wi as ((H1 & H2 & H3) & _).
  pose proof (Z.mod_pos_bound count 4 ltac:(lia)) as Hb.
  assert (count mod 4 = 0 \/ count mod 4 = 1 \/ count mod 4 = 2 \/ count mod 4 = 3) as [E|[E|[E|E]]] by lia; rewrite E in *.
  - cbn. destruct imIn. eexists; split; reflexivity.
  - change (1 * 90 =? 0) with false. change (1 * 90 =? 90) with true. cbn [orb]. specialize (Hsq eq_refl).
    destruct (setSize_wf junk imOut (Dims (dh (sz imIn)) (dw (sz imIn)) (dd (sz imIn))) Wo) as (W & Es); [repeat split; assumption|].
    set (out := setSize junk imOut _) in *.
    destruct (rot_loop_ok sched imIn out (fun i j => i * dh (sz imIn) + (dw (sz imIn) - 1 - j))
       (fun i j => dw (sz imIn) - 1 - j) (fun i j => i) HS Wi W) as (px & E' & W' & H).
    + intros i j k (? & ? & ?). rewrite Es. cbn [dw dh dd]. split; [unfold inside; cbn [dw dh dd]; lia|].
      unfold voxel_offset. rewrite Hsq. ring.
    + intros; lia.
    + rewrite E'. cbn [option_bind]. eexists. split; [reflexivity|]. eexists. split; [|reflexivity].
      split; [exact Es|]. split; [exact W'|]. intros x y z v (Hx & Hy & Hz). rewrite Es in Hx, Hy, Hz. cbn [dw dh dd sz] in *.
      rewrite <- (H y (dh (sz imIn) - 1 - x) z) by (unfold inside; lia). rewrite Hsq.
      replace (dh (sz imIn) - 1 - (dh (sz imIn) - 1 - x)) with x by lia. reflexivity.
  - change (2 * 90 =? 0) with false. change (2 * 90 =? 90) with false. change (2 * 90 =? 270) with false.
    change (2 * 90 =? 180) with true. cbn [orb].
    destruct (setSize_wf junk imOut (Dims (dw (sz imIn)) (dh (sz imIn)) (dd (sz imIn))) Wo) as (W & Es); [repeat split; assumption|].
    set (out := setSize junk imOut _) in *.
    destruct (rot_loop_ok sched imIn out (fun i j => (dh (sz imIn) - 1 - j) * dw (sz imIn) + (dw (sz imIn) - 1 - i))
       (fun i j => dw (sz imIn) - 1 - i) (fun i j => dh (sz imIn) - 1 - j) HS Wi W) as (px & E' & W' & H).
    + intros i j k (? & ? & ?). rewrite Es. cbn [dw dh dd]. split; [unfold inside; cbn [dw dh dd]; lia|].
      unfold voxel_offset. ring.
    + intros; lia.
    + rewrite E'. cbn [option_bind]. eexists. split; [reflexivity|].
      apply turns2_intro; auto; [cbn; rewrite Es; destruct (sz imIn); reflexivity|].
      intros x y z v (Hx & Hy & Hz).
      rewrite <- (H (dw (sz imIn) - 1 - x) (dh (sz imIn) - 1 - y) z) by (unfold inside; lia).
      replace (dh (sz imIn) - 1 - (dh (sz imIn) - 1 - y)) with y by lia.
      replace (dw (sz imIn) - 1 - (dw (sz imIn) - 1 - x)) with x by lia. reflexivity.
  - change (3 * 90 =? 0) with false. change (3 * 90 =? 90) with false. change (3 * 90 =? 270) with true.
    change (3 * 90 =? 180) with false. cbn [orb].
    destruct (setSize_wf junk imOut (Dims (dh (sz imIn)) (dw (sz imIn)) (dd (sz imIn))) Wo) as (W & Es); [repeat split; assumption|].
    set (out := setSize junk imOut _) in *.
    destruct (rot_loop_ok sched imIn out (fun i j => (dw (sz imIn) - 1 - i) * dh (sz imIn) + j)
       (fun i j => j) (fun i j => dw (sz imIn) - 1 - i) HS Wi W) as (px & E' & W' & H).
    + intros i j k (? & ? & ?). rewrite Es. cbn [dw dh dd]. split; [unfold inside; cbn [dw dh dd]; lia|].
      unfold voxel_offset. ring.
    + intros; lia.
    + rewrite E'. cbn [option_bind]. eexists. split; [reflexivity|].
      apply turns3_intro; auto.
      intros x y z v (Hx & Hy & Hz). cbn [sz] in *. rewrite Es in Hx, Hy, Hz. cbn [dw dh dd] in *.
      rewrite <- (H (dw (sz imIn) - 1 - y) x z) by (unfold inside; lia).
      replace (dw (sz imIn) - 1 - (dw (sz imIn) - 1 - y)) with y by lia. reflexivity.
Qed.

Lemma rotate_compose junk junk' sched sched' a b im imOut imOut' o : legal_sched sched -> legal_sched sched' ->
  wf_img im -> wf_img imOut -> wf_img imOut' -> 0 <= a -> 0 <= b -> dw (sz im) = dh (sz im) ->
  rotateX90 junk sched im a imOut = Some (1, o) ->
  rotateX90 junk' sched' o b imOut' = rotateX90 junk' sched' im (a + b) imOut'.
Proof.
  intros HS HS' W Wo Wo' Ha Hb Hsq E.
  destruct (rotate_ok junk sched im a imOut) as (o1 & E1 & T1); auto. rewrite E in E1. injection E1 as <-.
  pose proof (turns_wf _ _ _ W T1) as Wo1.
  assert (dw (sz o) = dh (sz o)) as Hsq'.
  { clear - Hsq T1. revert im Hsq T1. induction (Z.to_nat (a mod 4)) as [|n IH]; intros im Hsq T; cbn in T; [subst; exact Hsq|].
    destruct T as (m & (Em & _) & T). apply (IH m); [rewrite Em; cbn; auto|exact T]. }
  destruct (rotate_ok junk' sched' o b imOut') as (o2 & E2 & T2); auto.
  destruct (rotate_ok junk' sched' im (a + b) imOut') as (o3 & E3 & T3); auto; [lia|].
  rewrite E2, E3. do 2 f_equal.
  assert (turns (Z.to_nat (a mod 4) + Z.to_nat (b mod 4)) im o2) as T by (apply turns_add; eauto).
  pose proof (Z.mod_pos_bound a 4 ltac:(lia)). pose proof (Z.mod_pos_bound b 4 ltac:(lia)).
  destruct (Z_lt_dec (a mod 4 + b mod 4) 4) as [L|L].
  - assert ((a + b) mod 4 = a mod 4 + b mod 4) as Em by (rewrite Z.add_mod, Z.mod_small; lia).
    rewrite Em in T3. replace (Z.to_nat (a mod 4) + Z.to_nat (b mod 4))%nat with (Z.to_nat (a mod 4 + b mod 4)) in T by lia.
    apply (turns_fun _ _ _ _ W T T3).
  - assert ((a + b) mod 4 = a mod 4 + b mod 4 - 4) as Em.
    { rewrite Z.add_mod by lia. symmetry. apply Z.mod_unique with 1; lia. }
    rewrite Em in T3. replace (Z.to_nat (a mod 4) + Z.to_nat (b mod 4))%nat with (4 + Z.to_nat (a mod 4 + b mod 4 - 4))%nat in T by lia.
    apply turns_add in T as (m & Tm & T). apply turns4 in Tm; [|exact W]. subst m. apply (turns_fun _ _ _ _ W T T3).
Qed.

(** A quarter turn of any non-square image writes outside the output array. *)
Lemma rotate90_oob junk sched imIn count imOut : legal_sched sched -> wf_img imIn -> wf_img imOut -> nonempty imIn ->
  0 <= count -> count mod 4 = 1 -> dw (sz imIn) <> dh (sz imIn) -> rotateX90 junk sched imIn count imOut = None.
Proof.
  intros HS Wi Wo (N1 & N2 & N3) Hc Hm Hne. unfold rotateX90. rewrite rem_mod4, Hm by exact Hc. unfold width, height, depth.
  change (1 * 90 =? 0) with false. change (1 * 90 =? 90) with true. cbn [orb].
  destruct (setSize_wf junk imOut (Dims (dh (sz imIn)) (dw (sz imIn)) (dd (sz imIn))) Wo) as ((_ & WL) & Es); [repeat split; cbn; lia|].
  set (out := setSize junk imOut _) in *. rewrite Es in WL. cbn [dw dh dd] in WL.
  set (w := dw (sz imIn)) in *. set (h := dh (sz imIn)) in *. set (d := dd (sz imIn)) in *.
  assert (forall i j k, inside (sz imIn) i j k ->
     exists v, rd (pixs imIn) (k * w * h + (j * w + i)) = Some v) as HR.
  { intros i j k Hi. replace (k * w * h + (j * w + i)) with (voxel_offset w h i j k) by (unfold voxel_offset; ring).
    destruct (pixel_exists imIn i j k Wi Hi) as (v & _ & E). eauto. }
  destruct (Z_lt_dec w h) as [L|L].
  - destruct (HR 0 w 0) as (v & Ev); [unfold inside; lia|].
    erewrite (scatter_None _ _ _ (0, w, 0)); [reflexivity|apply HS, grid_In; lia|rewrite Ev; reflexivity|].
    intros (Hge & _). clear - Hge. revert Hge. cbn beta. replace (0 * w * h + (0 * h + (w - 1 - w))) with (-1) by ring. lia.
  - destruct (HR (w - 1) 0 (d - 1)) as (v & Ev); [unfold inside; lia|].
    erewrite (scatter_None _ _ _ (w - 1, 0, d - 1)); [reflexivity|apply HS, grid_In; lia|rewrite Ev; reflexivity|].
    rewrite WL. intros (_ & Hlt). clear - L Hne Hlt N1 N2 N3.
    replace (h * w * d) with ((d - 1) * w * h + w * h) in Hlt by ring. nia.
Qed.

Lemma rotate_negative junk sched imIn count imOut : count < 0 -> Z.rem count 4 <> 0 ->
  rotateX90 junk sched imIn count imOut = Some (1, setSize junk imOut (Dims (width imIn) (height imIn) (depth imIn))).
Proof.
  intros Hc Hr. unfold rotateX90. pose proof (Z.rem_bound_pos_neg count 4 ltac:(lia) ltac:(lia)) as Hb.
  pose proof (Z.rem_rem count 4 ltac:(lia)) as Hrr. rewrite Hrr in *.
  assert (Z.rem count 4 = -1 \/ Z.rem count 4 = -2 \/ Z.rem count 4 = -3) as [E|[E|E]] by lia; rewrite E; reflexivity.
Qed.

(** Lines *)
Lemma blit_ok {A} (l : list A) a b : 0 <= a -> a + Z.of_nat (length b) <= Z.of_nat (length l) ->
  exists l', blit l a b = Some l' /\ length l' = length l /\
    forall i, rd l' i = if (a <=? i) && (i <? a + Z.of_nat (length b)) then rd b (i - a) else rd l i.
Proof.
  intros Ha Hb. unfold blit. destruct (_ && _) eqn:E; [|lia]. eexists. split; [reflexivity|].
  assert (length (firstn (Z.to_nat a) l) = Z.to_nat a) as Hf by (rewrite firstn_length; lia).
  split; [rewrite !app_length, skipn_length, Hf; lia|].
  intros i. rewrite !rd_app, Hf, rd_firstn. rewrite Z2Nat.id by exact Ha.
  destruct (Z.ltb_spec i a).
  - destruct (Z.leb_spec a i); [lia|]. reflexivity.
  - destruct (Z.leb_spec a i); [|lia]. cbn. destruct (Z.ltb_spec (i - a) (Z.of_nat (length b))).
    + destruct (Z.ltb_spec i (a + Z.of_nat (length b))); [reflexivity|lia].
    + destruct (Z.ltb_spec i (a + Z.of_nat (length b))); [lia|]. rewrite rd_skipn by lia. f_equal. lia.
Qed.

Lemma fill_cells_ok dst a n v : 0 <= a -> 0 <= n -> a + n <= Z.of_nat (length dst) ->
  exists l', fill_cells dst a n v = Some l' /\ length l' = length dst /\
    forall i, rd l' i = if (a <=? i) && (i <? a + n) then Some v else rd dst i.
Proof.
  intros Ha Hn HL. unfold fill_cells. destruct (Z.gtb_spec n (Z.of_nat (length dst))) as [G|_]; [lia|].
  assert (Z.of_nat (length (map (fun _ => v) (zseq n))) = n) as Hm by (rewrite map_length, zseq_length; lia).
  destruct (blit_ok dst a (map (fun _ => v) (zseq n))) as (l' & E & HL' & H); [lia|lia|].
  exists l'. split; [exact E|]. split; [exact HL'|]. intros i. rewrite H, Hm.
  destruct (_ && _) eqn:B; [|reflexivity]. rewrite rd_map, rd_zseq by lia. reflexivity.
Qed.

Lemma copy_cells_ok src dst a n b : 0 <= a -> 0 <= n -> a + n <= Z.of_nat (length src) ->
  0 <= b -> b + n <= Z.of_nat (length dst) ->
  exists l', copy_cells src dst a n b = Some l' /\ length l' = length dst /\
    forall i, rd l' i = if (b <=? i) && (i <? b + n) then rd src (a + (i - b)) else rd dst i.
Proof.
  intros Ha Hn HL Hb HLd. unfold copy_cells. rewrite (subarray_ok 0) by assumption. cbn [option_bind].
  assert (Z.of_nat (length (map (znth 0 src) (zrange a n))) = n) as Hm by (rewrite map_length, zrange_length; lia).
  destruct (blit_ok dst b (map (znth 0 src) (zrange a n))) as (l' & E & HL' & H); [lia|lia|].
  exists l'. split; [exact E|]. split; [exact HL'|]. intros i. rewrite H, Hm.
  destruct (_ && _) eqn:B; [|reflexivity]. rewrite rd_map, rd_zrange by lia. cbn. symmetry. apply rd_znth. lia.
Qed.

Lemma shiftLine_ok src dst a dx len b bv : 0 <= a -> 0 <= len < 2 ^ 63 -> a + len <= Z.of_nat (length src) ->
  0 <= b -> b + len <= Z.of_nat (length dst) -> - len <= dx <= len ->
  exists l', shiftLine src dst a dx len b bv = Some l' /\ length l' = length dst /\
    forall i, rd l' i = if (b <=? i) && (i <? b + len)
       then (if (0 <=? i - b - dx) && (i - b - dx <? len) then rd src (a + (i - b - dx)) else Some bv) else rd dst i.
Proof.
  intros Ha Hlen HLs Hb HLd Hdx. unfold shiftLine. destruct (Z.eqb_spec dx 0) as [->|N].
  - destruct (copy_cells_ok src dst a len b) as (l' & E & HL & H); try lia. exists l'. split; [exact E|]. split; [exact HL|].
    intros i. rewrite H. destruct (_ && _) eqn:B; [|reflexivity]. destruct (_ && _) eqn:B2 in |- *; [f_equal; lia|lia].
  - destruct (Z.gtb_spec dx 0) as [G|G].
    + rewrite to_size_id by lia. destruct (fill_cells_ok dst b dx bv) as (d1 & E1 & L1 & H1); try lia. rewrite E1. cbn [option_bind].
      destruct (copy_cells_ok src d1 a (len - dx) (b + dx)) as (l' & E & HL & H); try lia. exists l'.
      split; [exact E|]. split; [lia|]. intros i. rewrite H, H1.
      repeat match goal with |- context [if ?c then _ else _] => destruct c eqn:? end; try lia; try reflexivity; f_equal; lia.
    + rewrite to_size_id by lia. destruct (copy_cells_ok src dst (a - dx) (len + dx) b) as (d1 & E1 & L1 & H1); try lia. rewrite E1. cbn [option_bind].
      destruct (fill_cells_ok d1 (b + (len + dx)) (- dx) bv) as (l' & E & HL & H); try lia. exists l'.
      split; [exact E|]. split; [lia|]. intros i. rewrite H, H1.
      repeat match goal with |- context [if ?c then _ else _] => destruct c eqn:? end; try lia; try reflexivity; f_equal; lia.
Qed.

Lemma to_size_big z : - 2 ^ 63 <= z < 0 -> 2 ^ 63 <= to_size z.
Proof. intros. apply to_size_neg. assumption. Qed.

Lemma shiftLine_oob src dst a dx len b bv : 0 <= a -> 0 <= len -> Z.of_nat (length src) < 2 ^ 63 ->
  - 2 ^ 62 <= dx <= 2 ^ 62 -> len < 2 ^ 62 ->
  Z.abs dx > len -> shiftLine src dst a dx len b bv = None.
Proof.
  intros Ha Hlen HLs Hd Hl Hdx. unfold shiftLine. destruct (Z.eqb_spec dx 0) as [->|N]; [lia|].
  assert (forall d x a' b', 0 <= a' -> - 2 ^ 63 <= x < 0 -> copy_cells src d a' (to_size x) b' = None) as HC.
  { intros d x a' b' Ha' Hx. unfold copy_cells, subarray. pose proof (to_size_big x Hx).
    destruct (_ && _) eqn:B; [|reflexivity]. exfalso. lia. }
  destruct (Z.gtb_spec dx 0).
  - destruct (fill_cells _ _ _ _); [|reflexivity]. cbn [option_bind]. apply HC; lia.
  - rewrite HC by lia. reflexivity.
Qed.
