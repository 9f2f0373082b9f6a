From Verif Require Export Model.Measures Proofs.ImageFacts.

Definition nzb (v : Z) : bool := negb (v =? 0).

(** A list of runs that covers exactly the nonzero cells of [full], in order. *)
Definition runs_good (full : list Z) (R : list (Z * Z)) : Prop :=
  Forall (fun r => 0 <= fst r /\ 0 < snd r /\ fst r + snd r <= Z.of_nat (length full)) R /\
  flat_map (fun r => zrange (fst r) (snd r)) R =
    filter (fun k => nzb (znth 0 full k)) (zseq (Z.of_nat (length full))).

Lemma znth_mid pre p (r : list Z) : znth 0 (pre ++ p :: r) (Z.of_nat (length pre)) = p.
Proof.
  apply znth_rd. rewrite rd_app. destruct (Z.ltb_spec (Z.of_nat (length pre)) (Z.of_nat (length pre))); [lia|].
  rewrite Z.sub_diag. reflexivity.
Qed.

Lemma runs_base_spec l : forall pre cs cz acc,
  let full := pre ++ l in let i := Z.of_nat (length pre) in
  0 <= cz -> (0 < cz -> 0 <= cs /\ cs + cz = i) -> (cz = 0 -> cs = 0) ->
  exists R, rev (runs_base l i cs cz acc) = rev acc ++ R /\
    Forall (fun r => 0 <= fst r /\ 0 < snd r /\ fst r + snd r <= Z.of_nat (length full)) R /\
    flat_map (fun r => zrange (fst r) (snd r)) R =
      zrange cs cz ++ filter (fun k => nzb (znth 0 full k)) (zrange i (Z.of_nat (length l))).
Proof.
  induction l as [|p l IH]; intros pre cs cz acc full i Hcz Hpos Hzero.
  - cbn [runs_base]. cbn [length Z.of_nat]. rewrite (zrange_nil i 0) by lia. cbn [filter]. rewrite app_nil_r.
    destruct (Z.gtb_spec cz 0).
    + exists [(cs, cz)]. cbn [rev]. split; [reflexivity|]. split.
      * repeat constructor; cbn; try lia. unfold full. rewrite app_length. cbn. lia.
      * cbn. rewrite app_nil_r. reflexivity.
    + exists []. rewrite app_nil_r, zrange_nil by lia. repeat split. constructor.
  - cbn [runs_base].
    assert (Ei : i + 1 = Z.of_nat (length (pre ++ [p]))) by (rewrite app_length; cbn [length]; unfold i; lia).
    assert (Ef : full = (pre ++ [p]) ++ l) by (rewrite <- app_assoc; reflexivity).
    assert (Ez : zrange i (Z.of_nat (length (p :: l))) = i :: zrange (i + 1) (Z.of_nat (length l))).
    { rewrite zrange_cons by (cbn [length]; lia). cbn [length]. f_equal. f_equal. lia. }
    rewrite Ez. cbn [filter]. assert (Ep : znth 0 full i = p) by apply znth_mid. rewrite Ep.
    change (nzb p) with (negb (p =? 0)). destruct (Z.eqb_spec p 0) as [->|Np]; cbn [negb].
    + destruct (Z.gtb_spec cz 0).
      * rewrite Ei. edestruct (IH (pre ++ [0]) 0 0 ((cs, cz) :: acc)) as (R & E & F & G); try lia.
        rewrite <- Ef in *. exists ((cs, cz) :: R). rewrite E. cbn [rev]. rewrite <- app_assoc. split; [reflexivity|].
        split.
        -- constructor; [|exact F]. cbn. unfold full. rewrite app_length. cbn. lia.
        -- cbn [flat_map fst snd]. rewrite G, (zrange_nil 0 0), <- Ei by lia. reflexivity.
      * assert (cz = 0) by lia. subst cz. rewrite Ei.
        edestruct (IH (pre ++ [0]) cs 0 acc) as (R & E & F & G); try lia.
        rewrite <- Ef in *. exists R. split; [exact E|]. split; [exact F|]. rewrite G, <- Ei. reflexivity.
    + set (cs' := if (cz =? 0) && (cs =? 0) then i else cs).
      assert (Hcs : 0 <= cs' /\ cs' + (cz + 1) = i + 1 /\ zrange cs' (cz + 1) = zrange cs cz ++ [i]).
      { unfold cs'. rewrite zrange_snoc by lia. destruct (Z.eqb_spec cz 0) as [->|].
        - rewrite Hzero by lia. cbn [andb Z.eqb]. split; [lia|]. split; [lia|].
          rewrite !zrange_nil by lia. rewrite Z.add_0_r. reflexivity.
        - cbn [andb]. split; [lia|]. split; [lia|]. do 2 f_equal. lia. }
      rewrite Ei. edestruct (IH (pre ++ [p]) cs' (cz + 1) acc) as (R & E & F & G); try lia.
      rewrite <- Ef in *. exists R. split; [exact E|]. split; [exact F|].
      rewrite G, <- Ei. destruct Hcs as (_ & _ & ->). rewrite <- app_assoc. reflexivity.
Qed.

Lemma runs_line_spec l : forall pre cs cz acc,
  let full := pre ++ l in let i := Z.of_nat (length pre) in
  0 <= cz -> (0 < cz -> 0 <= cs /\ cs + cz = i) ->
  exists R, rev (runs_line l i cs cz acc) = rev acc ++ R /\
    Forall (fun r => 0 <= fst r /\ 0 < snd r /\ fst r + snd r <= Z.of_nat (length full)) R /\
    flat_map (fun r => zrange (fst r) (snd r)) R =
      zrange cs cz ++ filter (fun k => nzb (znth 0 full k)) (zrange i (Z.of_nat (length l))).
Proof.
  induction l as [|p l IH]; intros pre cs cz acc full i Hcz Hpos.
  - cbn [runs_line]. cbn [length Z.of_nat]. rewrite (zrange_nil i 0) by lia. cbn [filter]. rewrite app_nil_r.
    destruct (Z.gtb_spec cz 0).
    + exists [(cs, cz)]. cbn [rev]. split; [reflexivity|]. split.
      * repeat constructor; cbn; try lia. unfold full. rewrite app_length. cbn. lia.
      * cbn. rewrite app_nil_r. reflexivity.
    + exists []. rewrite app_nil_r, zrange_nil by lia. repeat split. constructor.
  - cbn [runs_line].
    assert (Ei : i + 1 = Z.of_nat (length (pre ++ [p]))) by (rewrite app_length; cbn [length]; unfold i; lia).
    assert (Ef : full = (pre ++ [p]) ++ l) by (rewrite <- app_assoc; reflexivity).
    assert (Ez : zrange i (Z.of_nat (length (p :: l))) = i :: zrange (i + 1) (Z.of_nat (length l))).
    { rewrite zrange_cons by (cbn [length]; lia). cbn [length]. f_equal. f_equal. lia. }
    rewrite Ez. cbn [filter]. assert (Ep : znth 0 full i = p) by apply znth_mid. rewrite Ep.
    change (nzb p) with (negb (p =? 0)). destruct (Z.eqb_spec p 0) as [->|Np]; cbn [negb].
    + destruct (Z.gtb_spec cz 0).
      * rewrite Ei. edestruct (IH (pre ++ [0]) cs 0 ((cs, cz) :: acc)) as (R & E & F & G); try lia.
        rewrite <- Ef in *. exists ((cs, cz) :: R). rewrite E. cbn [rev]. rewrite <- app_assoc. split; [reflexivity|].
        split.
        -- constructor; [|exact F]. cbn. unfold full. rewrite app_length. cbn. lia.
        -- cbn [flat_map fst snd]. rewrite G, (zrange_nil cs 0), <- Ei by lia. reflexivity.
      * assert (cz = 0) by lia. subst cz. rewrite Ei.
        edestruct (IH (pre ++ [0]) cs 0 acc) as (R & E & F & G); try lia.
        rewrite <- Ef in *. exists R. split; [exact E|]. split; [exact F|]. rewrite G, <- Ei. reflexivity.
    + set (cs' := if (cz =? 0) then i else cs).
      assert (Hcs : 0 <= cs' /\ cs' + (cz + 1) = i + 1 /\ zrange cs' (cz + 1) = zrange cs cz ++ [i]).
      { unfold cs'. rewrite zrange_snoc by lia. destruct (Z.eqb_spec cz 0) as [->|].
        - split; [lia|]. split; [lia|].
          rewrite !zrange_nil by lia. rewrite Z.add_0_r. reflexivity.
        - split; [lia|]. split; [lia|]. do 2 f_equal. lia. }
      rewrite Ei. edestruct (IH (pre ++ [p]) cs' (cz + 1) acc) as (R & E & F & G); try lia.
      rewrite <- Ef in *. exists R. split; [exact E|]. split; [exact F|].
      rewrite G, <- Ei. destruct Hcs as (_ & _ & ->). rewrite <- app_assoc. reflexivity.
Qed.

Lemma runs_base_good l : runs_good l (rev (runs_base l 0 0 0 [])).
Proof.
  destruct (runs_base_spec l [] 0 0 []) as (R & E & F & G); try lia. cbn in E. cbn [length Z.of_nat] in *.
  change (Z.of_nat 0) with 0 in *. cbn [app] in *. unfold runs_good. rewrite E. split; [exact F|].
  rewrite G, zrange_nil, zrange_0_zseq by lia. reflexivity.
Qed.

Lemma runs_line_good l : runs_good l (rev (runs_line l 0 0 0 [])).
Proof.
  destruct (runs_line_spec l [] 0 0 []) as (R & E & F & G); try lia. cbn in E. cbn [length Z.of_nat] in *.
  change (Z.of_nat 0) with 0 in *. cbn [app] in *. unfold runs_good. rewrite E. split; [exact F|].
  rewrite G, zrange_nil, zrange_0_zseq by lia. reflexivity.
Qed.

(** Processing good runs = processing the nonzero cells one by one. *)
Lemma process_runs {S} full R (P : S -> list Z -> Z -> option S) (step : S -> Z -> option S) s :
  runs_good full R ->
  (forall s a n, 0 <= a -> 0 < n -> a + n <= Z.of_nat (length full) ->
     P s (map (znth 0 full) (zrange a n)) a = fold_opt step (zrange a n) s) ->
  fold_opt (fun s r => option_bind (subarray full (fst r) (snd r)) (fun l => P s l (fst r))) R s =
  fold_opt step (filter (fun k => nzb (znth 0 full k)) (zseq (Z.of_nat (length full)))) s.
Proof.
  intros [F G] HP. rewrite <- G, fold_opt_flat_map. apply fold_opt_ext.
  intros s' [a n] Hr. rewrite Forall_forall in F. specialize (F _ Hr). cbn [fst snd] in *.
  rewrite (subarray_ok 0) by lia. cbn [option_bind]. apply HP; lia.
Qed.

(** The pixel offsets a measure looks at. *)
Definition sel (b : bool) (im : img) : list Z :=
  let N := Z.of_nat (length (pixs im)) in
  if b then filter (fun k => nzb (znth 0 (pixs im) k)) (zseq N) else zseq N.

Lemma wf_count im : wf_img im -> pixelCount (sz im) = Z.of_nat (length (pixs im)).
Proof. intros [_ H]. rewrite pixelCount_dims. lia. Qed.

Lemma process_image_step {S} (proc : S -> list Z -> option S) (step : S -> Z -> option S) s0 b im :
  wf_img im ->
  (forall s a n, 0 <= a -> 0 <= n -> a + n <= Z.of_nat (length (pixs im)) ->
     (b = true -> 0 < n) -> (b = false -> n = Z.of_nat (length (pixs im))) ->
     proc s (map (znth 0 (pixs im)) (zrange a n)) = fold_opt step (zrange a n) s) ->
  process_image proc s0 b im = fold_opt step (sel b im) s0.
Proof.
  intros Hw HP. unfold process_image, sel. destruct b.
  - rewrite <- (process_runs (pixs im) (rev (runs_base (pixs im) 0 0 0 [])) (fun s l _ => proc s l)).
    + reflexivity.
    + apply runs_base_good.
    + intros; apply HP; auto; try lia; discriminate.
  - rewrite wf_count by assumption. rewrite (subarray_ok 0) by lia. cbn [option_bind].
    rewrite HP by (reflexivity || lia || discriminate). rewrite zrange_0_zseq. reflexivity.
Qed.

Lemma considered_sel b im : considered b im = map (znth 0 (pixs im)) (sel b im).
Proof.
  unfold considered, sel. destruct b.
  - rewrite <- (map_znth_zseq 0 (pixs im)) at 1. rewrite filter_map_comm. reflexivity.
  - rewrite map_znth_zseq. reflexivity.
Qed.

Lemma process_image_fold {S} (step : S -> Z -> S) s0 b im :
  wf_img im ->
  process_image (fun s l => Some (fold_left step l s)) s0 b im = Some (fold_left step (considered b im) s0).
Proof.
  intros Hw. rewrite (process_image_step _ (fun s k => Some (step s (znth 0 (pixs im) k)))); auto.
  - rewrite (fold_opt_total _ (fun s k => step s (znth 0 (pixs im) k))) by reflexivity.
    rewrite considered_sel, fold_left_map. reflexivity.
  - intros s a n _ _ _ _ _. rewrite fold_left_map.
    rewrite (fold_opt_total _ (fun s k => step s (znth 0 (pixs im) k))) by reflexivity. reflexivity.
Qed.

(** Raster order coordinates. *)
Definition kx (s : dims) (k : Z) : Z := k mod dw s.
Definition ky (s : dims) (k : Z) : Z := (k / dw s) mod dh s.
Definition kz (s : dims) (k : Z) : Z := k / dw s / dh s.

Lemma k_coords s x y z : inside s x y z ->
  kx s (voxel_offset (dw s) (dh s) x y z) = x /\ ky s (voxel_offset (dw s) (dh s) x y z) = y /\
  kz s (voxel_offset (dw s) (dh s) x y z) = z.
Proof.
  intros (Hx & Hy & Hz). unfold kx, ky, kz, voxel_offset.
  rewrite (Z.mul_comm (dw s)), Z.mod_add, Z.div_add by lia.
  rewrite (Z.mod_small x), (Z.div_small x) by lia. rewrite Z.add_0_l.
  rewrite (Z.mul_comm (dh s)), Z.mod_add, Z.div_add by lia.
  rewrite (Z.mod_small y), (Z.div_small y) by lia. rewrite Z.add_0_l. auto.
Qed.

Lemma k_voxel s k : wf_dims s -> 0 <= k < dw s * dh s * dd s ->
  inside s (kx s k) (ky s k) (kz s k) /\ voxel_offset (dw s) (dh s) (kx s k) (ky s k) (kz s k) = k.
Proof.
  intros (H1 & H2 & H3) Hk. assert (0 < dw s) by nia. assert (0 < dh s) by nia.
  unfold kx, ky, kz, voxel_offset, inside.
  pose proof (Z.div_mod k (dw s) ltac:(lia)) as D1. pose proof (Z.mod_pos_bound k (dw s) ltac:(lia)) as M1.
  pose proof (Z.div_mod (k / dw s) (dh s) ltac:(lia)) as D2. pose proof (Z.mod_pos_bound (k / dw s) (dh s) ltac:(lia)) as M2.
  assert (0 <= k / dw s) by (apply Z.div_pos; lia).
  assert (k / dw s < dh s * dd s) by (apply Z.div_lt_upper_bound; lia).
  assert (0 <= k / dw s / dh s) by (apply Z.div_pos; lia).
  assert (k / dw s / dh s < dd s) by (apply Z.div_lt_upper_bound; lia).
  split; [lia|]. rewrite (Z.add_comm _ (dh s * _)), <- D2. lia.
Qed.

Lemma process_image_pos_step {S} (proc : S -> list Z -> Z -> Z -> Z -> option S) (step : S -> Z -> option S) s0 b im :
  wf_img im ->
  (forall s a n y z, 0 <= y < dh (sz im) -> 0 <= z < dd (sz im) -> 0 <= a -> 0 <= n -> a + n <= dw (sz im) ->
     (b = true -> 0 < n) ->
     proc s (map (znth 0 (pixs im)) (zrange (voxel_offset (dw (sz im)) (dh (sz im)) a y z) n)) a y z =
     fold_opt step (zrange (voxel_offset (dw (sz im)) (dh (sz im)) a y z) n) s) ->
  (0 < dw (sz im)) ->
  process_image_pos proc s0 b im = fold_opt step (sel b im) s0.
Proof.
  intros [Hw HL] HP Hw0. pose proof Hw as (W1 & W2 & W3). unfold process_image_pos.
  set (w := dw (sz im)) in *. set (h := dh (sz im)) in *. set (d := dd (sz im)) in *.
  set (p := fun k => if b then nzb (znth 0 (pixs im) k) else true).
  assert (Esel : sel b im = filter p (zseq (d * h * w))).
  { unfold sel, p. replace (Z.of_nat (length (pixs im))) with (d * h * w) by lia.
    destruct b; [reflexivity|]. rewrite filter_all by reflexivity. reflexivity. }
  rewrite Esel, zseq_mul, filter_flat_map, fold_opt_flat_map by nia.
  rewrite zseq_mul, fold_opt_flat_map by lia. unfold height, depth, width. fold h d w.
  apply fold_opt_ext. intros s1 z Hz. apply zseq_In in Hz.
  change (zrange (z * h) h) with (map (fun k => z * h + k) (zseq h)). rewrite fold_opt_map. apply fold_opt_ext. intros s2 y Hy. apply zseq_In in Hy.
  rewrite slice_access_wf by (auto; unfold inside; fold w h d; lia). cbn [option_bind]. fold w h.
  assert (Eb : voxel_offset w h 0 y z = (z * h + y) * w) by (unfold voxel_offset; ring).
  assert (Hb : 0 <= (z * h + y) * w /\ (z * h + y) * w + w <= Z.of_nat (length (pixs im))).
  { rewrite HL. assert (Z1 : 0 <= z * h) by (apply Z.mul_nonneg_nonneg; lia).
    assert (Z2 : (z + 1) * h <= d * h) by (apply Z.mul_le_mono_nonneg_r; lia).
    assert (Z3 : (z * h + y + 1) * w <= d * h * w) by (apply Z.mul_le_mono_nonneg_r; lia).
    split; [apply Z.mul_nonneg_nonneg; lia|].
    replace (w * h * d) with (d * h * w) by ring. replace ((z * h + y) * w + w) with ((z * h + y + 1) * w) by ring.
    exact Z3. }
  rewrite Eb, (subarray_ok 0) by lia. cbn [option_bind].
  set (base := (z * h + y) * w) in *.
  assert (Eo : forall a, voxel_offset w h a y z = base + a) by (intros; unfold voxel_offset, base; ring).
  set (line := map (znth 0 (pixs im)) (zrange base w)).
  assert (Ll : Z.of_nat (length line) = w) by (unfold line; rewrite map_length, zrange_length; lia).
  assert (Lk : forall k, 0 <= k < w -> znth 0 line k = znth 0 (pixs im) (base + k)).
  { intros k Hk. apply znth_rd. unfold line. rewrite rd_map, rd_zrange by lia. reflexivity. }
  assert (Lr : forall a n, 0 <= a -> 0 <= n -> a + n <= w ->
     map (znth 0 line) (zrange a n) = map (znth 0 (pixs im)) (zrange (base + a) n)).
  { intros a n H1 H2 H3. unfold zrange. rewrite !map_map. apply map_ext_in. intros k Hk. apply zseq_In in Hk.
    rewrite Lk by lia. f_equal. lia. }
  assert (Lz : forall a n, zrange (base + a) n = map (fun k => base + k) (zrange a n)).
  { intros. unfold zrange. rewrite map_map. apply map_ext. intros; lia. }
  unfold process_line_pos, p. destruct b.
  - rewrite (process_runs line (rev (runs_line line 0 0 0 [])) (fun s l x => proc s l x y z) (fun s k => step s (base + k))).
    + rewrite Ll. change (zrange base w) with (map (fun k => base + k) (zseq w)).
      rewrite filter_map_comm, fold_opt_map. f_equal. apply filter_ext_in. intros k Hk. apply zseq_In in Hk.
      rewrite Lk by lia. reflexivity.
    + apply runs_line_good.
    + intros s a n Ha Hn Han. rewrite Lr by lia. rewrite <- Eo, HP by (auto; lia).
      rewrite Eo, Lz, fold_opt_map. reflexivity.
  - rewrite filter_all by reflexivity. specialize (HP s2 0 w y z). rewrite Eo, Z.add_0_r in HP.
    apply HP; lia || discriminate.
Qed.
