(** C122: the area openings of the path-opening addon, by union-find on arrays of labels. *)
From Verif Require Export Proofs.AreaUnionProofs3 Props.P_UnionFind.

(** ** C122.  On one slice, ImAreaOpening_UnionFind gives every pixel the highest level, not above its value, whose 4-connected
    component around it has [n] pixels or more (the least value of the image if there is none); it terminates, and it never reads
    or writes outside its arrays, whatever the array of the order held when allocated. *)
Theorem C122_opening_partial : forall fuel junk im imOut n, wf_img im -> typed_img UINT8 im -> wf_img imOut -> sz imOut = sz im -> dd (sz im) = 1 -> 1 <= n ->
  (length (pixs im) < fuel)%nat -> exists out, imAreaOpening_UnionFind fuel junk im n imOut = Some (Some (1, out)) /\ area_opened n (CrossSE 1) im out.
Proof.
  intros fuel junk im imOut n W Ty Wo So D Hn HF. destruct (fast_area_opening fuel junk im imOut n W Ty Wo So) as (o & E & A); [lia|exact Hn|exact HF|].
  pose proof W as ((W1 & W2 & W3) & Wl). destruct im as [[w h d] px]. cbn [sz dw dh dd pixs] in *. subst d. unfold first_slice in A. cbn [sz dw dh dd pixs] in A.
  assert (Ln : Z.to_nat (w * h) = length px) by lia. rewrite Ln, firstn_all in A. pose proof A as (_ & (_ & Lo) & _). cbn [sz dw dh dd pixs] in Lo.
  exists (Img (Dims w h 1) o). split; [|exact A]. rewrite E. replace (length px - length o)%nat with 0%nat by lia. cbn [repeat]. rewrite app_nil_r. reflexivity.
Qed.
Print Assumptions C122_opening_partial.

(** On volumes, the first slice only is opened, by itself; the others are cleared. *)
Theorem C122_slices : forall fuel junk im imOut n, wf_img im -> typed_img UINT8 im -> wf_img imOut -> sz imOut = sz im -> 1 <= dd (sz im) -> 1 <= n -> (length (pixs im) < fuel)%nat ->
  exists out slice, imAreaOpening_UnionFind fuel junk im n imOut = Some (Some (1, out)) /\ wf_img out /\ sz out = sz im /\
    area_opened n (CrossSE 1) (Img (Dims (dw (sz im)) (dh (sz im)) 1) (firstn (Z.to_nat (dw (sz im) * dh (sz im))) (pixs im))) slice /\
    (forall x y v, pixel_is slice x y 0 v -> pixel_is out x y 0 v) /\ (forall x y z v, 0 < z -> pixel_is out x y z v -> v = 0).
Proof.
  intros fuel junk im imOut n W Ty Wo So D Hn HF. destruct (fast_area_opening fuel junk im imOut n W Ty Wo So D Hn HF) as (o & E & A).
  pose proof W as ((W1 & W2 & W3) & Wl). pose proof A as (_ & (_ & Lo) & _). cbn [sz dw dh dd pixs] in Lo. set (w := dw (sz im)) in *. set (h := dh (sz im)) in *.
  assert (P : w * h <= w * h * dd (sz im)) by nia.
  eexists _, (Img (Dims w h 1) o). split; [exact E|]. split; [split; [exact (proj1 W)|cbn [pixs sz]; rewrite app_length, repeat_length; lia]|]. split; [reflexivity|]. split; [exact A|]. split.
  - intros x y v ((I1 & I2 & I3) & P0). cbn [sz dw dh dd pixs] in I1, I2, I3, P0. split; [unfold inside; cbn [sz]; fold w; fold h; lia|]. cbn [sz pixs]. fold w. fold h. rewrite rd_app.
    pose proof (rd_Some_range _ _ _ P0). destruct (_ <? _) eqn:Q; [exact P0|lia].
  - intros x y z v Hz ((I1 & I2 & I3) & P0). cbn [sz pixs] in I1, I2, I3, P0. fold w in I1, P0. fold h in I2, P0. unfold voxel_offset in P0. rewrite rd_app in P0.
    destruct (_ <? _) eqn:Q; [nia|]. pose proof (rd_In _ _ _ P0) as Hi. apply repeat_spec in Hi. exact Hi.
Qed.
Print Assumptions C122_slices.

(** The whole property, on volumes, fails: the other slices are lost. *)
Theorem C122_volumes_refuted : ~ (forall fuel junk im imOut n, wf_img im -> typed_img UINT8 im -> wf_img imOut -> sz imOut = sz im -> 1 <= n -> (length (pixs im) < fuel)%nat ->
  exists out, imAreaOpening_UnionFind fuel junk im n imOut = Some (Some (1, out)) /\ area_opened n (CrossSE 1) im out).
Proof.
  intros H. set (im := Img (Dims 2 1 2) [3; 5; 4; 4]). destruct (H 5%nat (fun _ => 0) im im 1) as (out & E & (_ & _ & A)); [split; [repeat split; cbn; lia|reflexivity]|repeat constructor; cbn; lia|split; [repeat split; cbn; lia|reflexivity]|reflexivity|lia|cbn; lia|].
  vm_compute in E. injection E as <-.
  destruct (A 0 0 1 4 0) as (_ & (a & b & c & _ & (_ & P)) & _); [split; [unfold inside; cbn; lia|reflexivity]|split; [unfold inside; cbn; lia|reflexivity]|].
  apply rd_In in P. cbn in P. lia.
Qed.
Print Assumptions C122_volumes_refuted.

(** The three implementations agree where all three apply. *)
Theorem C122_agree_partial : forall fuel fuel' fuel2 junk im imOut imOut' imOut2 n, wf_img im -> typed_img UINT8 im -> dd (sz im) = 1 -> wf_img imOut -> sz imOut = sz im -> wf_img imOut' -> sz imOut' = sz im -> 1 <= n < 2 ^ 63 ->
  (length (pixs im) < fuel)%nat -> (length (pixs im) < fuel')%nat ->
  exists out, imAreaOpening_UnionFind fuel junk im n imOut = Some (Some (1, out)) /\ areaOpening fuel' UINT8 (CrossSE 1) false im n imOut' = Some (Some (1, out)) /\
    (tree_ok UINT8 (CrossSE 1) im -> sz imOut2 = sz im -> (2 * length (pixs im) + 1 <= fuel2)%nat -> areaOpen fuel2 UINT8 (CrossSE 1) im n imOut2 = Some (Some (1, out))).
Proof.
  intros fuel fuel' fuel2 junk im imOut imOut' imOut2 n W Ty D Wo So Wo' So' Hn HF HF'.
  destruct (C122_opening_partial fuel junk im imOut n W Ty Wo So D) as (o & E & A); [lia|exact HF|].
  destruct (C77_areaOpening_partial fuel' UINT8 (CrossSE 1) im imOut' n W Ty Wo' So' eq_refl cross_symmetric Hn HF') as (o' & E' & A').
  pose proof (C77_unique _ _ _ _ _ W A A') as <-. exists o. split; [exact E|]. split; [exact E'|]. intros T S2 F2.
  destruct (C77_agree_partial fuel' fuel2 UINT8 (CrossSE 1) im imOut' imOut2 n T Wo' So' S2 eq_refl Hn HF' F2) as (o2 & E2 & E3). rewrite E' in E2. injection E2 as <-. exact E3.
Qed.
Print Assumptions C122_agree_partial.

(** PixelDownSort: every pixel once, from the highest value down, and in scan order among equal values; every array access is inside. *)
Theorem C122_sort : forall px sp, (forall v, In v px -> 0 <= v < 256) -> length sp = length px ->
  exists l, pixelDownSort px sp = Some l /\ Permutation l (zseq (Z.of_nat (length px))) /\
    forall i j p q u v, i < j -> rd l i = Some p -> rd l j = Some q -> rd px p = Some u -> rd px q = Some v -> v < u \/ (u = v /\ p < q).
Proof.
  intros px sp Hb L. exists (order px). split; [apply pixelDownSort_ok; [exact Hb|lia]|]. split.
  - apply NoDup_Permutation; [apply (order_NoDup px Hb)|apply zseq_NoDup|]. intros q. rewrite order_In, zseq_In. reflexivity.
  - intros i j p q u v Lt Pi Pj Pu Pv. pose proof (order_rank px Hb i p Pi) as Ei. pose proof (order_rank px Hb j q Pj) as Ej.
    pose proof (rank_inv px p q (rd_Some_range _ _ _ Pv) ltac:(lia)) as B. unfold before, znth in B. rewrite Pu, Pv in B. exact B.
Qed.
Print Assumptions C122_sort.

(** ImAreaClosing_UnionFind overflows on every image with a pixel: it complements the INT output within the range of INT. *)
Theorem C122_closing_refuted : forall fuel junk im imOut n, wf_img im -> typed_img UINT8 im -> wf_img imOut -> sz imOut = sz im -> 0 < dw (sz im) -> 0 < dh (sz im) -> 0 < dd (sz im) -> 1 <= n ->
  (length (pixs im) < fuel)%nat -> imAreaClosing_UnionFind fuel junk im n imOut = None.
Proof.
  intros fuel junk im imOut n W Ty Wo So D1 D2 D3 Hn HF. pose proof (inv_negative UINT8 im W Ty) as N. pose proof (neg_typed UINT8 im _ W Ty N) as Ty'.
  assert (W' : wf_img (pw1 (px_inv UINT8) im)) by apply N. unfold imAreaClosing_UnionFind. rewrite same_size_true by congruence. cbn [negb].
  destruct (fast_area_opening fuel junk (pw1 (px_inv UINT8) im) imOut n W' Ty' Wo So) as (o & E & A); [cbn [pw1 sz]; lia|exact Hn|cbn [pw1 pixs]; rewrite map_length; exact HF|].
  rewrite E. cbn [fuel_bind]. change (negb (1 =? 1)) with false. cbv iota. cbn [pixs]. pose proof A as (_ & (_ & Lo) & _). cbn [sz dw dh dd pixs] in Lo.
  assert (To : typed_img UINT8 (Img (Dims (dw (sz (pw1 (px_inv UINT8) im))) (dh (sz (pw1 (px_inv UINT8) im))) 1) o)).
  { eapply area_typed; [| |exact A].
    - apply Forall_forall. intros v Hv. apply (proj1 (Forall_forall _ _) Ty'). cbn [first_slice pixs] in Hv. rewrite <- (firstn_skipn (Z.to_nat (dw (sz (pw1 (px_inv UINT8) im)) * dh (sz (pw1 (px_inv UINT8) im)))) (pixs (pw1 (px_inv UINT8) im))). apply in_or_app. left. exact Hv.
    - destruct W' as ((B1 & B2 & B3) & B4). split; [repeat split; cbn; lia|]. cbn [first_slice pixs sz dw dh dd]. rewrite firstn_length. cbn [pw1 sz] in *. nia. }
  destruct o as [|v o]; [cbn [length pw1 sz] in Lo; nia|]. unfold typed_img in To. cbn [pixs] in To. apply Forall_inv in To. unfold inty in To. cbn in To. cbn [app map all_some]. rewrite inv_int_none by lia. reflexivity.
Qed.
Print Assumptions C122_closing_refuted.

(** With the size 0, labels are read as links: a pixel gets a value that the image does not have; with a negative size, an access
    outside the array. *)
Theorem C122_sizes_refuted : (exists im out, wf_img im /\ typed_img UINT8 im /\ (forall fuel junk, (3 < fuel)%nat -> imAreaOpening_UnionFind fuel junk im 0 im = Some (Some (1, out))) /\ ~ area_opened 0 (CrossSE 1) im out) /\
  exists im, wf_img im /\ typed_img UINT8 im /\ forall fuel junk, (3 < fuel)%nat -> imAreaOpening_UnionFind fuel junk im (-9) im = None.
Proof.
  set (im := Img (Dims 3 1 1) [9; 5; 9]). assert (W : wf_img im) by (split; [repeat split; cbn; lia|reflexivity]). assert (Ty : typed_img UINT8 im) by (repeat constructor; cbn; lia). split.
  - exists im, (Img (Dims 3 1 1) [9; -1; 9]). split; [exact W|]. split; [exact Ty|]. split.
    + intros fuel junk HF. destruct fuel as [|[|[|[|f]]]]; try lia. vm_compute. reflexivity.
    + intros (_ & _ & A). destruct (A 1 0 0 5 (-1)) as (_ & (a & b & c & _ & (_ & P)) & _); [split; [unfold inside; cbn; lia|reflexivity]|split; [unfold inside; cbn; lia|reflexivity]|].
      apply rd_In in P. cbn in P. lia.
  - exists im. split; [exact W|]. split; [exact Ty|]. intros fuel junk HF. destruct fuel as [|[|[|[|f]]]]; try lia. vm_compute. reflexivity.
Qed.
Print Assumptions C122_sizes_refuted.

(** A case where the hypotheses hold. *)
Example C122_case : wf_img hills /\ typed_img UINT8 hills /\ dd (sz hills) = 1 /\ tree_ok UINT8 (CrossSE 1) hills /\
  imAreaOpening_UnionFind 13 (fun i => 7 * i) hills 2 hills = Some (Some (1, Img (Dims 4 3 1) [1;5;1;2; 5;5;1;2; 1;1;1;1])) /\
  imAreaOpening_UnionFind 13 (fun i => 7 * i) hills 13 hills = Some (Some (1, Img (Dims 4 3 1) [1;1;1;1; 1;1;1;1; 1;1;1;1])) /\
  imAreaOpening_UnionFind 13 (fun i => 7 * i) hills 2 (Img (Dims 1 1 1) [0]) = Some (Some (-98, Img (Dims 1 1 1) [0])) /\
  imAreaOpening_UnionFind 9 (fun i => 0) (Img (Dims 2 2 2) [5;5;1;1; 9;9;9;9]) 2 (Img (Dims 2 2 2) [0;0;0;0; 0;0;0;0]) = Some (Some (1, Img (Dims 2 2 2) [5;5;1;1; 0;0;0;0])) /\
  pixelDownSort [3; 9; 3; 255; 0] [0; 0; 0; 0; 0] = Some [3; 1; 0; 2; 4] /\
  imAreaClosing_UnionFind 13 (fun i => 0) hills 2 hills = None.
Proof. pose proof hills_ok as T. destruct T as (_ & W & Ty & _). split; [exact W|]. split; [exact Ty|]. split; [reflexivity|]. split; [exact hills_ok|]. repeat split; vm_compute; reflexivity. Qed.
