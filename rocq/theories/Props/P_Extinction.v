(** Theorems for C97 to C101: extinction values. *)
From Verif Require Import Props.P_Label Props.P_Geodesic Props.P_Watershed Props.P_MaxTree Proofs.ExtinctionProofs6 Proofs.ExtinctionProofs7.

(** ** C97.  watershedExtinction: the basins are those of [basins]; the image of values is 0 outside the markers and constant
    on each marker.  The function answers RES_ERR although it has worked. *)
Theorem C97_basins : forall sort fuel k t t2 t3 se im markers out bas, ext_call t t2 se im markers -> turns fuel im markers -> sz out = sz im -> sz bas = sz im ->
  exists vals res, watershedExtinction sort fuel k t t2 t3 se false im markers out bas = Some (Some (-100, (vals, res))) /\ basins fuel t t2 se im markers bas = Some (Some (1, res)) /\
    sz vals = sz im /\ wf_img vals /\
    (forall x y z, pixel_is markers x y z 0 -> pixel_is vals x y z 0) /\
    (forall x y z l x' y' z' v, pixel_is markers x y z l -> pixel_is markers x' y' z' l -> pixel_is vals x y z v -> pixel_is vals x' y' z' v).
Proof. exact ext_basins. Qed.
Print Assumptions C97_basins.

(** A sort, for the cases. *)
Fixpoint ins (lt : Z -> Z -> bool) (x : Z) (l : list Z) : list Z := match l with [] => [x] | y :: l' => if lt y x then y :: ins lt x l' else x :: l end.
Definition isort (lt : Z -> Z -> bool) (l : list Z) : list Z := fold_right (ins lt) [] l.
Lemma isort_sorts : key_sorts isort.
Proof.
  intros key l. set (lt := fun i j => key i >? key j). assert (Pi : forall x l, Permutation (ins lt x l) (x :: l)).
  { intros x l0. induction l0 as [|y l0 IH]; [apply Permutation_refl|]. cbn [ins]. destruct (lt y x); [|apply Permutation_refl]. eapply Permutation_trans; [apply perm_skip; exact IH|apply perm_swap]. }
  induction l as [|a l (P & S)]; [split; [apply Permutation_refl|constructor]|]. cbn [isort fold_right]. fold (isort lt l). split; [eapply Permutation_trans; [apply Pi|apply perm_skip; exact P]|].
  clear P. induction S as [|y l0 S IH Hy]; [repeat constructor|]. cbn [ins]. destruct (lt y a) eqn:E; unfold lt in E.
  - constructor; [exact IH|]. apply Forall_forall. intros b Hb. apply (Permutation_in _ (Pi a l0)) in Hb as [<-|Hb]; [lia|]. rewrite Forall_forall in Hy. apply Hy. exact Hb.
  - constructor; [constructor; assumption|]. constructor; [lia|]. apply Forall_forall. intros b Hb. rewrite Forall_forall in Hy. specialize (Hy b Hb). cbn beta in *. rewrite Z.gtb_ltb in E. apply Z.ltb_ge in E. etransitivity; eassumption.
Qed.

Definition canyon : img := Img (Dims 7 1 1) [4;9;2;6;0;8;5].
Definition pools : img := Img (Dims 7 1 1) [1;0;2;0;3;0;4].
Definition shores : img := Img (Dims 7 1 1) [1;2;2;3;3;3;4].
Lemma canyon_call : minima_call UINT8 UINT8 (SquSE 1) canyon pools /\ turns 14 canyon pools.
Proof.
  assert (G : geo1_ok UINT8 (SquSE 1) canyon canyon).
  { split; [auto|]. split; [split; [repeat split; cbn; lia|reflexivity]|]. split; [reflexivity|]. split; [typed_px|]. split; [repeat split; cbn; lia|]. split; [in_points|]. discriminate. }
  assert (Sy : symmetric_se (SquSE 1)) by (apply element_check_ok; vm_compute; reflexivity). pose proof G as (_ & W & _ & _ & I1 & I2 & HP).
  destruct (minima_markers 60 UINT8 UINT8 (fun _ => 0) (SquSE 1) (SquSE 1) (SquSE 1) canyon canyon G ltac:(unfold enough; cbn; lia) Sy ltac:(cbn; lia) ltac:(apply few_all; [exact W|exact I1|cbn; lia]) ltac:(cbn; lia) I2 HP) as (mk & E & Lz & Fo & Hlt).
  assert (Em : mk = pools) by (vm_compute in E; injection E as <-; reflexivity). subst mk. split.
  - split; [|split; [exact Sy|split; [apply (C43_connecting canyon W); reflexivity|exact Lz]]]. split; [exact Fo|]. split; [reflexivity|]. split; [exact Hlt|]. exists 0, 0, 0, 1. split; [split; [unfold inside; cbn; lia|reflexivity]|lia].
  - split; [cbn; lia|]. assert (B : forall x y z l, pixel_is pools x y z l -> l <= 4) by (intros x y z l (_ & R); apply rd_In in R; cbn in R; lia). intros x y z l P. specialize (B x y z l P). lia.
Qed.

Example C97_case : ext_call UINT8 UINT8 (SquSE 1) canyon pools /\ turns 14 canyon pools /\
  watershedExtinction isort 14 ByVolume UINT8 UINT8 UINT16 (SquSE 1) false canyon pools canyon canyon = Some (Some (-100, (Img (Dims 7 1 1) [5;0;4;0;36;0;3], shores))).
Proof. destruct canyon_call as (MC & Tu). pose proof MC as (EC & _). split; [exact EC|]. split; [exact Tu|]. vm_compute. reflexivity. Qed.

(** C97 is false without the condition on the markers: an image without regional minimum has none, and the offset of the last
    pixel has no value when it is used. *)
Theorem C97_no_marker_refuted : exists t3 junk dse se im out, geo1_ok UINT8 se im out /\ symmetric_se se /\ connecting se im /\
  watershedExtinction_minima isort 4 ByVolume UINT8 t3 junk dse se false im out = None.
Proof.
  exists UINT16, (fun _ => 0), (SquSE 1), (SquSE 1), (Img (Dims 2 1 1) [255; 255]), (Img (Dims 2 1 1) [0; 0]). assert (W : wf_img (Img (Dims 2 1 1) [255; 255])) by (split; [repeat split; cbn; lia|reflexivity]).
  split; [|split; [apply element_check_ok; vm_compute; reflexivity|split; [apply (C43_connecting _ W); reflexivity|vm_compute; reflexivity]]].
  split; [auto|]. split; [exact W|]. split; [reflexivity|]. split; [typed_px|]. split; [repeat split; cbn; lia|]. split; [in_points|]. discriminate.
Qed.
Print Assumptions C97_no_marker_refuted.

(** ** C98.  watershedExtinctionGraph: the same basins; the graph is a forest; an edge joins the labels of two neighbours;
    labels of neighbours are in the same tree.  There is one edge for each marker but one in each tree; its weight is the
    value that watershedExtinction gives this marker. *)
Theorem C98_graph_partial : forall sort fuel k t t2 te se im markers out bas g, ext_call t t2 se im markers -> turns fuel im markers -> symmetric_se se -> sz out = sz im -> sz bas = sz im ->
  exists res g' vals, watershedExtinctionGraph fuel k t t2 te se im markers bas g = Some (Some (1, res, g')) /\ basins fuel t t2 se im markers bas = Some (Some (1, res)) /\
    watershedExtinction sort fuel k t t2 te se false im markers out bas = Some (Some (-100, (vals, res))) /\
    GraphSpec.good_graph g' /\ GraphSpec.acyclic (edges g') /\
    (forall e, In e (edges g') -> src e <> 0 /\ tgt e <> 0 /\ exists x y z x' y' z', sees se x y z x' y' z' /\ pixel_is res x y z (src e) /\ pixel_is res x' y' z' (tgt e)) /\
    (forall x y z x' y' z' l l', sees se x y z x' y' z' -> pixel_is res x y z l -> pixel_is res x' y' z' l' -> l <> 0 -> GraphSpec.linked (edges g') l l') /\
    exists eaten, NoDup eaten /\ length eaten = length (edges g') /\
      (forall i e a x y z, rd (edges g') i = Some e -> rd eaten i = Some a -> pixel_is markers x y z a -> pixel_is vals x y z (wt e)) /\
      (forall x y z l, pixel_is markers x y z l -> l <> 0 -> exists l', GraphSpec.linked (edges g') l l' /\ ~ In l' eaten /\
        forall x' y' z' l'', pixel_is markers x' y' z' l'' -> GraphSpec.linked (edges g') l l'' -> In l'' eaten \/ l'' = l').
Proof. exact ext_graph. Qed.
Print Assumptions C98_graph_partial.

Example C98_case : ext_call UINT8 UINT8 (SquSE 1) canyon pools /\ turns 14 canyon pools /\ symmetric_se (SquSE 1) /\
  exists g', watershedExtinctionGraph 14 ByDynamic UINT8 UINT8 UINT16 (SquSE 1) canyon pools canyon graph0 = Some (Some (1, shores, g')) /\ edges g' = [Edge 3 2 4; Edge 3 4 3; Edge 2 1 5].
Proof. destruct canyon_call as (MC & Tu). pose proof MC as (EC & Sy & _). split; [exact EC|]. split; [exact Tu|]. split; [exact Sy|]. eexists. split; [vm_compute; reflexivity|reflexivity]. Qed.

(** C98 is false when a label is the greatest value of its type: watershedExtinction refuses it, watershedExtinctionGraph does
    not, and its loop on the labels never ends. *)
Lemma endless b v : Z.of_nat (length (bd_equ b)) = 256 -> forall fuel i, 0 <= i <= 255 -> raise_loop fuel ByArea UINT8 255 v i b = Some None.
Proof.
  intros Le. assert (S : forall i, 0 <= i <= 255 -> exists e, rd (bd_equ b) i = Some e) by (intros i Hi; exists (znth 0 (bd_equ b) i); apply rd_znth; rewrite Le; lia).
  assert (N : forall i, 0 <= wrap UINT8 (i + 1) <= 255) by (intros i; pose proof (IntsFacts.wrap_range UINT8 (i + 1)) as R; exact R).
  induction fuel as [|fuel IH]; intros i Hi; cbn [raise_loop]; change (wrap UINT32 (255 + 1)) with 256; replace (i <? 256) with true by lia; cbn [negb]; [reflexivity|].
  destruct (S i Hi) as (e & ->). cbn [option_bind]. destruct (e =? i); cbn [option_bind raiseLevel]; apply IH, N.
Qed.
Theorem C98_endless_refuted : exists im markers, flood_ok UINT8 UINT8 (SquSE 1) im markers /\
  watershedExtinction isort 9 ByArea UINT8 UINT8 UINT16 (SquSE 1) false im markers im im = Some (Some (-100, (im, im))) /\
  forall fuel, watershedExtinctionGraph fuel ByArea UINT8 UINT8 UINT16 (SquSE 1) im markers im graph0 = Some None.
Proof.
  exists (Img (Dims 1 1 1) [5]), (Img (Dims 1 1 1) [255]). split; [|split; [vm_compute; reflexivity|]].
  - split; [auto|]. split; [split; [repeat split; cbn; lia|reflexivity]|]. split; [split; [repeat split; cbn; lia|reflexivity]|]. split; [reflexivity|]. split; [typed_px|]. split; [typed_px|]. split; [repeat split; cbn; lia|]. split; [reflexivity|]. split; [in_points|]. discriminate.
  - intros fuel. unfold watershedExtinctionGraph, ext_flood_graph. change (negb _) with false. cbv iota. unfold ext_process.
    change (maxVal UINT8 false (Img (Dims 1 1 1) [255])) with (Some 255). cbn [option_bind]. change (wrap UINT32 255) with 255. change (wrap UINT32 (255 + 1)) with 256.
    destruct (flood_init UINT8 (pixs (Img (Dims 1 1 1) [5])) (pixs (Img (Dims 1 1 1) [255]))) as [q|] eqn:Eq; [|vm_compute in Eq; discriminate]. cbn [option_bind].
    assert (P : exists q', hq_pop UINT8 false q = Some (0, q') /\ hq_isEmpty q = false) by (vm_compute in Eq; injection Eq as <-; eexists; split; vm_compute; reflexivity). destruct P as (q' & Ep & Ee). clear Eq.
    destruct fuel as [|fuel]; cbn [ext_loop ex_fl fl_q fl_lbl ex_b ex_g ex_stat ex_level ex_last]; rewrite Ee; [reflexivity|]. rewrite Ep. cbn [option_bind]. unfold ext_pixel at 1. change (rd (pixs (Img (Dims 1 1 1) [5])) 0) with (Some 5). cbn [option_bind ex_level ex_b].
    change (5 >? tmin UINT8) with true. cbv iota. rewrite endless; [reflexivity|reflexivity|lia].
Qed.
Print Assumptions C98_endless_refuted.

(** ** C99.  Dynamics: with the regional minima as markers, the value of a minimum of height [a] is its dynamic: at the level
    a + v it is joined to another minimum that is not higher, and below this level to nothing lower; the value of the last
    minimum, a lowest one, is the height of the image above it. *)
Theorem C99_dynamics_partial : forall sort fuel t t2 t3 se im markers out bas, minima_call t t2 se im markers -> turns fuel im markers -> sz out = sz im -> sz bas = sz im ->
  tmin t3 = 0 -> tmax t <= tmax t3 ->
  exists vals res l0 M, watershedExtinction sort fuel ByDynamic t t2 t3 se false im markers out bas = Some (Some (-100, (vals, res))) /\
    MaxTreeSpec.greatest_value im M /\ l0 <> 0 /\ (exists x y z, pixel_is markers x y z l0) /\
    forall x y z l a v, pixel_is markers x y z l -> l <> 0 -> pixel_is im x y z a -> pixel_is vals x y z v ->
      (l <> l0 -> dynamic_of se im markers x y z l a v) /\
      (l = l0 -> v = M - a /\ forall x' y' z' c, pixel_is im x' y' z' c -> a <= c).
Proof. exact ext_dynamics. Qed.
Print Assumptions C99_dynamics_partial.

(** The markers that watershedExtinction computes when it is given none. *)
Lemma own_markers sort fuel k t t3 junk dse se rankOutput im out : geo1_ok t se im out -> enough im fuel -> symmetric_se se -> se_size se <= 1 -> 0 < dw (sz im) -> connecting se im ->
  (exists x y z v, pixel_is im x y z v /\ v < tmax t) ->
  exists markers, minima_call t UINT32 se im markers /\ turns fuel im markers /\
    watershedExtinction_minima sort fuel k t t3 junk dse se rankOutput im out =
      fuel_bind (watershedExtinction sort fuel k t UINT32 t3 se rankOutput im markers out (new_img junk markers)) (fun '(r, (o, _)) => Some (Some (r, o))).
Proof.
  intros G Hf Hy Hsz Hw Co (x0 & y0 & z0 & v0 & P0 & Hv0). pose proof G as (Ht & W & Es & T & I1 & I2 & HP). pose proof W as (_ & L).
  set (reps := map (fun k => (k mod dw (sz im), k / dw (sz im) mod dh (sz im), k / dw (sz im) / dh (sz im))) (zseq (Z.of_nat (length (pixs im))))).
  assert (Lr : length reps = length (pixs im)) by (unfold reps; rewrite map_length, zseq_length; lia).
  assert (Hn : Z.of_nat (length reps) < tmax UINT32). { rewrite Lr. destruct I1 as (_ & _ & _ & Q). change (2 ^ 31) with 2147483648 in Q. unfold pixelCount in L. change (tmax UINT32) with 4294967295. lia. }
  assert (Hr : forall x y z v, pixel_is im x y z v -> is_min t se im x y z v -> exists a b c, In (a, b, c) reps /\ linked se eq im x y z a b c).
  { intros x y z v P _. exists x, y, z. split; [|econstructor; exact P]. destruct P as (I & _). pose proof (inside_range _ _ _ _ I) as Rg. unfold reps. apply in_map_iff. exists (voxel_offset (dw (sz im)) (dh (sz im)) x y z). split; [apply (spot_off (sz im)); exact I|]. apply zseq_In. unfold pixelCount in L. lia. }
  destruct (minimaLabeled_ok fuel t UINT32 junk dse se im (new_img junk im) reps (geo1_new _ _ _ _ junk G) Hf Hy Hsz Hr Hn) as (mk & E & Lz & B).
  pose proof Lz as (Sm & Wm & Lz1 & _). exists mk.
  assert (Fo : flood_ok t UINT32 se im mk).
  { repeat (split; [assumption|]). split; [|repeat (split; [assumption|]); assumption].
    apply Forall_forall. intros v Hv. apply In_rd in Hv as (j & Hj & R). destruct Wm as (_ & Lm). rewrite Lm in Hj. destruct (voxel_exists (sz mk) j) as (x & y & z & I & Ek); [apply int_small; rewrite Sm; exact I1|exact Hj|].
    assert (0 <= v <= Z.of_nat (length reps)) by (apply (B x y z); split; [exact I|rewrite <- Ek; exact R]). unfold inty. cbn in *. lia. }
  assert (Hlt : forall x y z l, pixel_is mk x y z l -> l < tmax UINT32) by (intros x y z l P; specialize (B x y z l P); lia).
  assert (Hex : exists x y z, in_marker mk x y z).
  { destruct (existsb (fun l => negb (l =? 0)) (pixs mk)) eqn:Ex.
    - apply existsb_exists in Ex as (l & Hl & El). apply In_rd in Hl as (j & Hj & R). destruct Wm as (_ & Lm). rewrite Lm in Hj. destruct (voxel_exists (sz mk) j) as (x & y & z & I & Ek); [apply int_small; rewrite Sm; exact I1|exact Hj|].
      exists x, y, z, l. split; [split; [exact I|rewrite <- Ek; exact R]|]. lia.
    - exfalso. destruct (px_val (sz im) im _ _ _ _ eq_refl P0) as (_ & Rg & Ev). apply (M3 t UINT32 se im mk Fo Hlt Lz (voxel_offset (dw (sz im)) (dh (sz im)) x0 y0 z0) Rg ltac:(lia)). intros (d & Hd & Wk).
      destruct (walk_range se im _ _ _ Wk) as ((Rd & _) & _). destruct Wm as (_ & Lm). unfold pixelCount in Lm. rewrite Sm in Lm. pose proof (rd_znth 0 (pixs mk) d ltac:(lia)) as R. apply rd_In in R.
      assert (K : existsb (fun l => negb (l =? 0)) (pixs mk) = true) by (apply existsb_exists; eexists; split; [exact R|lia]). congruence. }
  split; [split; [split; [exact Fo|split; [reflexivity|split; [exact Hlt|exact Hex]]]|auto]|]. split.
  - unfold enough in Hf. split; [lia|]. intros x y z l P. specialize (B x y z l P). lia.
  - unfold minimaLabeled, labelled_after in E. rewrite same_size_true in E by reflexivity. cbn [negb] in E. unfold watershedExtinction_minima. rewrite same_size_true by congruence. cbn [negb].
    destruct (minima fuel t junk se false im (new_img junk im)) as [[r|]|]; cbn [fuel_bind] in E |- *; try discriminate. destruct (label fuel UINT32 dse se false (snd r) (new_img junk im)) as [[((n & w) & lb)|]|]; cbn [fuel_bind] in E |- *; try discriminate. injection E as ->.
    unfold watershedExtinction_markers. rewrite !same_size_true by congruence. reflexivity.
Qed.

(** C99 for the function that finds the minima itself. *)
Theorem C99_minima : forall sort fuel t t3 junk dse se im out, geo1_ok t se im out -> enough im fuel -> symmetric_se se -> se_size se <= 1 -> 0 < dw (sz im) -> connecting se im ->
  (exists x y z v, pixel_is im x y z v /\ v < tmax t) -> tmin t3 = 0 -> tmax t <= tmax t3 ->
  exists vals markers l0 M, watershedExtinction_minima sort fuel ByDynamic t t3 junk dse se false im out = Some (Some (-100, vals)) /\ labels_zones se (is_min t se im) im markers /\
    MaxTreeSpec.greatest_value im M /\ l0 <> 0 /\ (exists x y z, pixel_is markers x y z l0) /\
    forall x y z l a v, pixel_is markers x y z l -> l <> 0 -> pixel_is im x y z a -> pixel_is vals x y z v ->
      (l <> l0 -> dynamic_of se im markers x y z l a v) /\
      (l = l0 -> v = M - a /\ forall x' y' z' c, pixel_is im x' y' z' c -> a <= c).
Proof.
  intros sort fuel t t3 junk dse se im out G Hf Hy Hsz Hw Co Hex U3 H3. destruct (own_markers sort fuel ByDynamic t t3 junk dse se false im out G Hf Hy Hsz Hw Co Hex) as (mk & MC & Tu & E). pose proof G as (_ & _ & Es & _). pose proof MC as (_ & _ & _ & Lz). pose proof Lz as (Sm & _).
  destruct (ext_dynamics sort fuel t UINT32 t3 se im mk out (new_img junk mk) MC Tu Es ltac:(exact Sm) U3 H3) as (vals & res & l0 & M & E2 & A). exists vals, mk, l0, M. split; [rewrite E, E2; reflexivity|]. split; [exact Lz|exact A].
Qed.
Print Assumptions C99_minima.

Example C99_case : minima_call UINT8 UINT8 (SquSE 1) canyon pools /\ turns 14 canyon pools /\ tmin UINT16 = 0 /\ tmax UINT8 <= tmax UINT16 /\
  watershedExtinction isort 14 ByDynamic UINT8 UINT8 UINT16 (SquSE 1) false canyon pools canyon canyon = Some (Some (-100, (Img (Dims 7 1 1) [5;0;4;0;9;0;3], shores))).
Proof. destruct canyon_call as (MC & Tu). pose proof MC as (EC & _). split; [exact MC|]. split; [exact Tu|]. split; [reflexivity|]. split; [cbn; lia|]. vm_compute. reflexivity. Qed.

(** C99 is false for markers that touch: the second one is merged before its first pixel is counted; its value 6 is more than
    the range 2 of the image. *)
Theorem C99_touching_refuted : exists im markers vals, ext_call UINT8 UINT8 (SquSE 1) im markers /\ turns 2 im markers /\ symmetric_se (SquSE 1) /\ connecting (SquSE 1) im /\
  watershedExtinction isort 2 ByDynamic UINT8 UINT8 UINT8 (SquSE 1) false im markers im im = Some (Some (-100, (vals, markers))) /\
  pixel_is markers 0 0 0 1 /\ pixel_is im 0 0 0 3 /\ pixel_is vals 0 0 0 2 /\ pixel_is markers 1 0 0 2 /\ pixel_is im 1 0 0 5 /\ pixel_is vals 1 0 0 6.
Proof.
  exists (Img (Dims 2 1 1) [3; 5]), (Img (Dims 2 1 1) [1; 2]), (Img (Dims 2 1 1) [2; 6]). assert (W : wf_img (Img (Dims 2 1 1) [3; 5])) by (split; [repeat split; cbn; lia|reflexivity]).
  split; [|split; [|split; [apply element_check_ok; vm_compute; reflexivity|split; [apply (C43_connecting _ W); reflexivity|split; [vm_compute; reflexivity|repeat split; unfold inside; cbn; lia]]]]].
  - split; [|split; [reflexivity|split; [px_bound|exists 0, 0, 0, 1; split; [split; [unfold inside; cbn; lia|reflexivity]|lia]]]].
    split; [auto|]. split; [exact W|]. split; [split; [repeat split; cbn; lia|reflexivity]|]. split; [reflexivity|]. split; [typed_px|]. split; [typed_px|]. split; [repeat split; cbn; lia|]. split; [reflexivity|]. split; [in_points|]. discriminate.
  - split; [cbn; lia|]. intros x y z l (_ & R). apply rd_In in R. cbn in R. lia.
Qed.
Print Assumptions C99_touching_refuted.

(** C99 is false for an element that does not hold the image together: only the part of the last pixel gets the value of its
    last minimum; the minima of the other parts keep 0. *)
Theorem C99_parts_refuted : exists im markers vals bas, ext_call UINT8 UINT8 (HorizSE 1) im markers /\ turns 4 im markers /\ symmetric_se (HorizSE 1) /\
  labels_zones (HorizSE 1) (is_min UINT8 (HorizSE 1) im) im markers /\
  watershedExtinction isort 8 ByDynamic UINT8 UINT8 UINT8 (HorizSE 1) false im markers im im = Some (Some (-100, (vals, bas))) /\
  pixel_is markers 0 0 0 1 /\ pixel_is im 0 0 0 3 /\ pixel_is vals 0 0 0 0 /\ pixel_is markers 0 1 0 2 /\ pixel_is im 0 1 0 1 /\ pixel_is vals 0 1 0 8.
Proof.
  set (im := Img (Dims 2 2 1) [3;7;1;9]). exists im, (Img (Dims 2 2 1) [1;0;2;0]), (Img (Dims 2 2 1) [0;0;8;0]), (Img (Dims 2 2 1) [1;1;2;2]).
  assert (G : geo1_ok UINT8 (HorizSE 1) im im). { split; [auto|]. split; [split; [repeat split; cbn; lia|reflexivity]|]. split; [reflexivity|]. split; [typed_px|]. split; [repeat split; cbn; lia|]. split; [in_points|]. discriminate. }
  assert (Sy : symmetric_se (HorizSE 1)) by (apply element_check_ok; vm_compute; reflexivity). pose proof G as (_ & W & _ & _ & I1 & I2 & HP).
  destruct (minima_markers 60 UINT8 UINT8 (fun _ => 0) (SquSE 1) (HorizSE 1) (HorizSE 1) im im G ltac:(unfold enough; cbn; lia) Sy ltac:(cbn; lia) ltac:(apply few_all; [exact W|exact I1|cbn; lia]) ltac:(cbn; lia) I2 HP) as (mk & E & Lz & Fo & Hlt).
  assert (Em : mk = Img (Dims 2 2 1) [1;0;2;0]) by (vm_compute in E; injection E as <-; reflexivity). subst mk.
  split; [|split; [|split; [exact Sy|split; [exact Lz|split; [vm_compute; reflexivity|repeat split; unfold inside; cbn; lia]]]]].
  - split; [exact Fo|]. split; [reflexivity|]. split; [exact Hlt|]. exists 0, 0, 0, 1. split; [split; [unfold inside; cbn; lia|reflexivity]|lia].
  - split; [cbn; lia|]. intros x y z l (_ & R). apply rd_In in R. cbn in R. lia.
Qed.
Print Assumptions C99_parts_refuted.

(** ** C100.  Areas and volumes. *)
Theorem C100_areas : forall sort fuel t t2 t3 se im markers out bas, minima_call t t2 se im markers -> turns fuel im markers -> sz out = sz im -> sz bas = sz im ->
  exists vals res l0, watershedExtinction sort fuel ByArea t t2 t3 se false im markers out bas = Some (Some (-100, (vals, res))) /\
    l0 <> 0 /\ (exists x y z, pixel_is markers x y z l0) /\
    forall x y z l v, pixel_is markers x y z l -> l <> 0 -> pixel_is vals x y z v ->
      (l <> l0 -> exists w, v = wrap t3 w /\ area_of se im markers x y z l w) /\ (l = l0 -> v = wrap t3 (dw (sz im) * dh (sz im) * dd (sz im))).
Proof. exact ext_areas. Qed.
Print Assumptions C100_areas.

Theorem C100_volumes : forall sort fuel t t2 t3 se im markers out bas, minima_call t t2 se im markers -> turns fuel im markers -> sz out = sz im -> sz bas = sz im ->
  exists vals res l0 M, watershedExtinction sort fuel ByVolume t t2 t3 se false im markers out bas = Some (Some (-100, (vals, res))) /\
    MaxTreeSpec.greatest_value im M /\ l0 <> 0 /\ (exists x y z, pixel_is markers x y z l0) /\
    forall x y z l v, pixel_is markers x y z l -> l <> 0 -> pixel_is vals x y z v ->
      (l <> l0 -> exists w, v = wrap t3 w /\ volume_of se im markers x y z l w) /\ (l = l0 -> v = wrap t3 (Zsum (map (fun u => M - u + 1) (pixs im)) mod 2 ^ 32)).
Proof. exact ext_volumes. Qed.
Print Assumptions C100_volumes.

Example C100_case : minima_call UINT8 UINT8 (SquSE 1) canyon pools /\ turns 14 canyon pools /\
  watershedExtinction isort 14 ByArea UINT8 UINT8 UINT16 (SquSE 1) false canyon pools canyon canyon = Some (Some (-100, (Img (Dims 7 1 1) [1;0;1;0;7;0;1], shores))) /\
  watershedExtinction isort 14 ByVolume UINT8 UINT8 UINT16 (SquSE 1) false canyon pools canyon canyon = Some (Some (-100, (Img (Dims 7 1 1) [5;0;4;0;36;0;3], shores))).
Proof. destruct canyon_call as (MC & Tu). pose proof MC as (EC & _). split; [exact MC|]. split; [exact Tu|]. split; vm_compute; reflexivity. Qed.

(** ** C101.  Ranks: when the labels fit in the type of the output, the markers are numbered from 1, each with its own number,
    by decreasing extinction value. *)
Theorem C101_ranks_partial : forall sort fuel k t t2 t3 se im markers out out' bas, ext_call t t2 se im markers -> turns fuel im markers -> sz out = sz im -> sz out' = sz im -> sz bas = sz im -> key_sorts sort ->
  (forall x y z l, pixel_is markers x y z l -> l <= tmax t3) ->
  exists rks vals res n, watershedExtinction sort fuel k t t2 t3 se true im markers out bas = Some (Some (-100, (rks, res))) /\
    watershedExtinction sort fuel k t t2 UINT32 se false im markers out' bas = Some (Some (-100, (vals, res))) /\ MaxTreeSpec.greatest_value markers n /\
    (forall x y z, pixel_is markers x y z 0 -> pixel_is rks x y z 0) /\
    (forall x y z l, pixel_is markers x y z l -> l <> 0 -> exists r, pixel_is rks x y z r /\ 1 <= r <= n) /\
    (forall x y z l r x' y' z' l' r', pixel_is markers x y z l -> l <> 0 -> pixel_is rks x y z r -> pixel_is markers x' y' z' l' -> l' <> 0 -> pixel_is rks x' y' z' r' -> (r = r' <-> l = l')) /\
    (forall x y z l v r x' y' z' l' v' r', pixel_is markers x y z l -> l <> 0 -> pixel_is vals x y z v -> pixel_is rks x y z r ->
       pixel_is markers x' y' z' l' -> l' <> 0 -> pixel_is vals x' y' z' v' -> pixel_is rks x' y' z' r' -> v' < v -> r < r').
Proof. exact ext_ranks. Qed.
Print Assumptions C101_ranks_partial.

Example C101_case : ext_call UINT8 UINT8 (SquSE 1) canyon pools /\ turns 14 canyon pools /\ key_sorts isort /\ (forall x y z l, pixel_is pools x y z l -> l <= tmax UINT8) /\
  watershedExtinction isort 14 ByDynamic UINT8 UINT8 UINT8 (SquSE 1) true canyon pools canyon canyon = Some (Some (-100, (Img (Dims 7 1 1) [2;0;3;0;1;0;4], shores))).
Proof.
  destruct canyon_call as (MC & Tu). pose proof MC as (EC & _). split; [exact EC|]. split; [exact Tu|]. split; [exact isort_sorts|]. split; [|vm_compute; reflexivity]. intros x y z l (_ & R). apply rd_In in R. cbn in R. change (tmax UINT8) with 255. lia.
Qed.

(** C101 is false for labels that do not fit: the lowest marker, of label 256, has the greatest value but not the first rank:
    its rank is not written and its pixel keeps the value. *)
Theorem C101_small_type_refuted : exists im markers rks vals bas, ext_call UINT8 UINT16 (SquSE 1) im markers /\ turns 256 im markers /\ key_sorts isort /\
  watershedExtinction isort 256 ByDynamic UINT8 UINT16 UINT8 (SquSE 1) true im markers im im = Some (Some (-100, (rks, bas))) /\
  watershedExtinction isort 256 ByDynamic UINT8 UINT16 UINT32 (SquSE 1) false im markers im im = Some (Some (-100, (vals, bas))) /\
  pixel_is markers 0 0 0 256 /\ pixel_is vals 0 0 0 9 /\ pixel_is rks 0 0 0 9 /\ pixel_is markers 2 0 0 1 /\ pixel_is vals 2 0 0 6 /\ pixel_is rks 2 0 0 1.
Proof.
  eexists (Img (Dims 3 1 1) [0; 9; 3]), (Img (Dims 3 1 1) [256; 0; 1]), _, _, _.
  split; [|split; [|split; [exact isort_sorts|split; [vm_compute; reflexivity|split; [vm_compute; reflexivity|]]]]].
  - split; [|split; [reflexivity|split; [|exists 2, 0, 0, 1; split; [split; [unfold inside; cbn; lia|reflexivity]|lia]]]].
    + split; [auto|]. split; [split; [repeat split; cbn; lia|reflexivity]|]. split; [split; [repeat split; cbn; lia|reflexivity]|]. split; [reflexivity|]. split; [typed_px|]. split; [typed_px|]. split; [repeat split; cbn; lia|]. split; [reflexivity|]. split; [in_points|]. discriminate.
    + intros x y z l (_ & R). apply rd_In in R. cbn in R. change (tmax UINT16) with 65535. lia.
  - split; [apply Nat.leb_le; vm_compute; reflexivity|]. intros x y z l (_ & R). apply rd_In in R. cbn in R. lia.
  - repeat split; first [reflexivity|unfold inside; cbn; lia].
Qed.
Print Assumptions C101_small_type_refuted.
