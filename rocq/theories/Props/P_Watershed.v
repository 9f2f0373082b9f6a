(** Theorems for C33, C34 and C54: flooding from markers. *)
From Verif Require Import Proofs.WatershedLines2 Proofs.LabelExtrema Props.P_Geodesic Props.P_Label.

(** ** C33.  basins: the markers keep their labels; a pixel is labelled exactly when a path of neighbours joins it to a
    marker; a labelled pixel is joined to a marker of its label inside its basin, through pixels of value at most [h], and
    no marker at all reaches it through values less than [h].  One turn per pixel is enough, without access outside an
    array. *)
Theorem C33_basins : forall fuel t t2 se im markers out, flood_ok t t2 se im markers -> sz out = sz im -> (length (pixs im) <= fuel)%nat ->
  (forall x y z l, pixel_is markers x y z l -> l < tmax t2) ->
  exists res, basins fuel t t2 se im markers out = Some (Some (1, res)) /\ flooded se im markers res.
Proof. exact basins_ok. Qed.
Print Assumptions C33_basins.

(** C33.  Only labels of markers are used. *)
Theorem C33_marker_labels : forall se im markers out x y z l, flooded se im markers out -> pixel_is out x y z l -> l <> 0 ->
  exists x' y' z', pixel_is markers x' y' z' l.
Proof.
  intros se im markers out x y z l (_ & _ & _ & _ & H) P Hl. destruct (H x y z l P Hl) as (h & B & _). clear H P. induction B as [x y z v Pm|x y z x' y' z' v B IH]; [eauto|exact IH].
Qed.
Print Assumptions C33_marker_labels.

(** C33.  A marker image that holds the type maximum is refused. *)
Theorem C33_reject : forall fuel t t2 se im markers out x y z, flood_ok t t2 se im markers -> sz out = sz im -> pixel_is markers x y z (tmax t2) ->
  basins fuel t t2 se im markers out = Some (Some (-100, out)).
Proof. exact basins_reject. Qed.
Print Assumptions C33_reject.

Definition relief : img := Img (Dims 5 3 1) [1;3;9;2;0; 2;5;7;4;1; 6;6;8;3;3].
Definition springs : img := Img (Dims 5 3 1) [7;0;0;0;0; 0;0;0;0;0; 0;0;0;0;4].
Ltac px_bound := let x := fresh in let y := fresh in let z := fresh in let l := fresh in let I := fresh in let R := fresh in
  intros x y z l (I & R); apply rd_In in R; cbn in R; repeat (destruct R as [R|R]; [subst l; reflexivity|]); destruct R.
Lemma relief_ok : flood_ok UINT8 UINT8 (CrossSE 1) relief springs.
Proof. split; [auto|]. split; [split; [repeat split; cbn; lia|reflexivity]|]. split; [split; [repeat split; cbn; lia|reflexivity]|]. split; [reflexivity|]. split; [typed_px|]. split; [typed_px|].
  split; [repeat split; cbn; lia|]. split; [reflexivity|]. split; [in_points|]. discriminate. Qed.

Example C33_case : flood_ok UINT8 UINT8 (CrossSE 1) relief springs /\ (forall x y z l, pixel_is springs x y z l -> l < tmax UINT8) /\
  basins 15 UINT8 UINT8 (CrossSE 1) relief springs relief = Some (Some (1, Img (Dims 5 3 1) [7;7;4;4;4; 7;7;4;4;4; 7;7;4;4;4])).
Proof. split; [exact relief_ok|]. split; [px_bound|]. vm_compute. reflexivity. Qed.

(** ** C34.  watershed. *)
Theorem C34_watershed : forall fuel t t2 se im markers out bas, flood_ok t t2 se im markers -> sz out = sz im -> sz bas = sz im -> symmetric_se se -> distinct_points se ->
  (length (pixs im) <= fuel)%nat ->
  exists lines basins, watershed fuel t se im markers out bas = Some (Some (1, (lines, basins))) /\ watershed_ok t se im markers lines basins.
Proof. exact watershed_correct. Qed.
Print Assumptions C34_watershed.

(** C34.  In words: outside the lines, neighbours have the same label. *)
Theorem C34_separated : forall fuel t t2 se im markers out bas, flood_ok t t2 se im markers -> sz out = sz im -> sz bas = sz im -> symmetric_se se -> distinct_points se ->
  (length (pixs im) <= fuel)%nat ->
  exists lines basins, watershed fuel t se im markers out bas = Some (Some (1, (lines, basins))) /\
    (forall x y z w, pixel_is lines x y z w -> w = 0 \/ w = tmax t) /\
    (forall x y z x' y' z' l l', sees se x y z x' y' z' -> pixel_is lines x y z 0 -> pixel_is lines x' y' z' 0 -> pixel_is basins x y z l -> pixel_is basins x' y' z' l' -> l = l').
Proof.
  intros fuel t t2 se im markers out bas H1 H2 H3 H4 H5 H6. destruct (watershed_correct fuel t t2 se im markers out bas H1 H2 H3 H4 H5 H6) as (lines & ba & E & (_ & _ & _ & _ & A & _ & _ & B & _)).
  exists lines, ba. split; [exact E|]. split; [exact A|]. intros x y z x' y' z' l l' S P P' Q Q'. exact (proj2 (B _ _ _ _ _ _ _ _ S P P' Q Q')).
Qed.
Print Assumptions C34_separated.

(** C34.  The usual elements are symmetric and have distinct points. *)
Fixpoint distinct_check (l : list point) : bool := match l with [] => true | p :: l => negb (mem_point p l) && distinct_check l end.
Lemma distinct_check_ok l : distinct_check l = true -> NoDup l.
Proof.
  induction l as [|p l IH]; cbn; intros H; [constructor|]. apply andb_prop in H as (H1 & H2). constructor; [|apply IH; exact H2]. intros Hi. apply mem_point_In in Hi. rewrite Hi in H1. discriminate.
Qed.
Theorem C34_elements : Forall (fun se => symmetric_se se /\ int_points se /\ distinct_points se)
  [SquSE 1; SquSE0 1; HexSE 1; HexSE0 1; CrossSE 1; HorizSE 1; VertSE 1; CubeSE 1; Cross3DSE 1; RhombicuboctahedronSE 1].
Proof. repeat (constructor; [split; [|split]; [apply element_check_ok; vm_compute; reflexivity|apply element_check_ok; vm_compute; reflexivity|apply distinct_check_ok; vm_compute; reflexivity]|]). constructor. Qed.
Print Assumptions C34_elements.

Example C34_case : flood_ok UINT8 UINT8 (CrossSE 1) relief springs /\ symmetric_se (CrossSE 1) /\ distinct_points (CrossSE 1) /\
  watershed 15 UINT8 (CrossSE 1) relief springs relief springs =
    Some (Some (1, (Img (Dims 5 3 1) [0;0;255;0;0; 0;0;255;0;0; 0;0;255;0;0], Img (Dims 5 3 1) [7;7;4;4;4; 7;7;4;4;4; 7;7;4;4;4]))).
Proof.
  split; [exact relief_ok|]. split; [apply element_check_ok; vm_compute; reflexivity|]. split; [apply distinct_check_ok; vm_compute; reflexivity|]. vm_compute. reflexivity.
Qed.

(** ** C54.  watershed and basins without markers flood from the regional minima. *)
Definition few_minima (t : ity) (se : strelt) (im : img) (n : Z) : Prop :=
  exists reps, (forall x y z v, pixel_is im x y z v -> is_min t se im x y z v -> exists a b c, In (a, b, c) reps /\ linked se eq im x y z a b c) /\ Z.of_nat (length reps) < n.

Lemma few_all t se im n : wf_img im -> int_sized (sz im) -> Z.of_nat (length (pixs im)) < n -> few_minima t se im n.
Proof.
  intros (_ & L) Hs Hn. exists (map (fun k => (k mod dw (sz im), k / dw (sz im) mod dh (sz im), k / dw (sz im) / dh (sz im))) (zseq (Z.of_nat (length (pixs im))))). split.
  - intros x y z v P _. exists x, y, z. split; [|econstructor; exact P]. destruct P as (I & _). pose proof (inside_range _ _ _ _ I) as Rg. apply in_map_iff. exists (voxel_offset (dw (sz im)) (dh (sz im)) x y z). split; [|apply zseq_In; lia].
    unfold inside in I. replace (voxel_offset (dw (sz im)) (dh (sz im)) x y z) with (x + (y + z * dh (sz im)) * dw (sz im)) by (unfold voxel_offset; ring). rewrite Z.mod_add, Z.mod_small, Z.div_add, (Z.div_small x) by lia. cbn [Z.add]. rewrite Z.mod_add, Z.mod_small, Z.div_add, (Z.div_small y) by lia. reflexivity.
  - rewrite map_length, zseq_length. lia.
Qed.

Lemma minima_markers fuel t t2 junk dse se dse' im out : geo1_ok t se im out -> enough im fuel -> symmetric_se se -> se_size se <= 1 -> few_minima t se im (tmax t2) ->
  0 < dw (sz im) -> int_points dse' -> planar dse' (sz im) ->
  exists markers, minimaLabeled fuel t t2 junk dse se im (new_img junk im) = Some (Some (1, markers)) /\ labels_zones se (is_min t se im) im markers /\
    flood_ok t t2 dse' im markers /\ (forall x y z l, pixel_is markers x y z l -> l < tmax t2).
Proof.
  intros G Hf Hy Hsz (reps & Hr & Hn) Hw Hp HP. destruct (minimaLabeled_ok fuel t t2 junk dse se im (new_img junk im) reps (geo1_new _ _ _ _ junk G) Hf Hy Hsz Hr Hn) as (mk & E & Z0 & B).
  pose proof G as (Ht & W & Es & T & I1 & I2 & _). pose proof Z0 as (Sm & Wm & _). exists mk. split; [exact E|]. split; [exact Z0|]. split.
  - repeat (split; [assumption|]). split; [|repeat (split; [assumption|]); assumption].
    apply Forall_forall. intros v Hv. apply In_rd in Hv as (k & Hk & R). destruct Wm as (_ & Lm). rewrite Lm in Hk. destruct (voxel_exists (sz mk) k) as (x & y & z & I & Ek); [apply int_small; rewrite Sm; exact I1|exact Hk|].
    assert (0 <= v <= Z.of_nat (length reps)) by (apply (B x y z); split; [exact I|rewrite <- Ek; exact R]). unfold inty. assert (tmin t2 <= 0) by (destruct t2; cbn; lia). lia.
  - intros x y z l P. specialize (B x y z l P). lia.
Qed.

Theorem C54_watershed : forall fuel t junk dse se im out, geo1_ok t se im out -> enough im fuel -> symmetric_se se -> distinct_points se -> se_size se <= 1 -> 0 < dw (sz im) ->
  exists markers lines basins, watershed_minima fuel t junk dse se im out = Some (Some (1, lines)) /\ labels_zones se (is_min t se im) im markers /\ watershed_ok t se im markers lines basins.
Proof.
  intros fuel t junk dse se im out G Hf Hy Hd Hsz Hw. pose proof G as (Ht & W & Es & T & I1 & I2 & HP).
  assert (Hn : few_minima t se im (tmax UINT32)). { apply few_all; [exact W|exact I1|]. destruct W as (_ & L). destruct I1 as (_ & _ & _ & Q). change (2 ^ 31) with 2147483648 in Q. unfold pixelCount in L. change (tmax UINT32) with 4294967295. lia. }
  destruct (minima_markers fuel t UINT32 junk dse se se im out G Hf Hy Hsz Hn Hw I2 HP) as (mk & E & Z0 & Fo & _). unfold enough in Hf.
  destruct (watershed_correct fuel t UINT32 se im mk out (new_img junk im) Fo Es eq_refl Hy Hd ltac:(lia)) as (li & ba & E2 & Wo). exists mk, li, ba.
  split; [|auto]. unfold watershed_minima. rewrite same_size_true by auto. cbn [negb]. rewrite E. cbn [fuel_bind snd]. rewrite E2. reflexivity.
Qed.
Print Assumptions C54_watershed.

(** basins floods with the default element whatever the element given: the statement holds for that element only. *)
Theorem C54_basins_partial : forall fuel t t2 junk dse im out, geo1_ok t dse im out -> enough im fuel -> symmetric_se dse -> se_size dse <= 1 -> 0 < dw (sz im) ->
  few_minima t dse im (tmax t2) ->
  exists markers res, basins_minima fuel t t2 junk dse dse im out = Some (Some (1, res)) /\ labels_zones dse (is_min t dse im) im markers /\ flooded dse im markers res.
Proof.
  intros fuel t t2 junk dse im out G Hf Hy Hsz Hw Hn. pose proof G as (Ht & W & Es & T & I1 & I2 & HP).
  destruct (minima_markers fuel t t2 junk dse dse dse im out G Hf Hy Hsz Hn Hw I2 HP) as (mk & E & Z0 & Fo & Hl). unfold enough in Hf.
  destruct (basins_ok fuel t t2 dse im mk out Fo Es ltac:(lia) Hl) as (res & E2 & Fl). exists mk, res.
  split; [|auto]. unfold basins_minima. rewrite same_size_true by auto. cbn [negb]. rewrite E. cbn [fuel_bind snd]. exact E2.
Qed.
Print Assumptions C54_basins_partial.

(** What is computed with another element: minima for [se], flooding for [dse]. *)
Theorem C54_basins_mixed : forall fuel t t2 junk dse se im out, geo1_ok t se im out -> enough im fuel -> symmetric_se se -> se_size se <= 1 -> 0 < dw (sz im) ->
  int_points dse -> planar dse (sz im) -> few_minima t se im (tmax t2) ->
  exists markers res, basins_minima fuel t t2 junk dse se im out = Some (Some (1, res)) /\ labels_zones se (is_min t se im) im markers /\ flooded dse im markers res.
Proof.
  intros fuel t t2 junk dse se im out G Hf Hy Hsz Hw Hp HP Hn. pose proof G as (Ht & W & Es & T & I1 & I2 & _).
  destruct (minima_markers fuel t t2 junk dse se dse im out G Hf Hy Hsz Hn Hw Hp HP) as (mk & E & Z0 & Fo & Hl). unfold enough in Hf.
  destruct (basins_ok fuel t t2 dse im mk out Fo Es ltac:(lia) Hl) as (res & E2 & Fl). exists mk, res.
  split; [|auto]. unfold basins_minima. rewrite same_size_true by auto. cbn [negb]. rewrite E. cbn [fuel_bind snd]. exact E2.
Qed.
Print Assumptions C54_basins_mixed.

(** C54.  With a horizontal element the rows are independent, yet the flooding crosses them. *)
Definition rows : img := Img (Dims 2 2 1) [0; 1; 9; 5].
Lemma rows_ok : geo1_ok UINT8 (HorizSE 1) rows rows.
Proof.
  split; [left; reflexivity|]. split; [split; [repeat split; cbn; lia|reflexivity]|]. split; [reflexivity|]. split; [typed_px|]. split; [repeat split; cbn; lia|]. split; [in_points|discriminate].
Qed.
Lemma horiz_row x y z x' y' z' : sees (HorizSE 1) x y z x' y' z' -> y' = y.
Proof. intros (p & Hi & _ & -> & _). cbn in Hi. destruct Hi as [<-|[<-|[<-|[]]]]; cbn; lia. Qed.
Theorem C54_basins_refuted : exists (dse se : strelt) (im markers res : img), geo1_ok UINT8 se im im /\ enough im 8 /\ symmetric_se se /\ symmetric_se dse /\ se_size se <= 1 /\
  minimaLabeled 8 UINT8 UINT8 (fun _ => 0) dse se im im = Some (Some (1, markers)) /\ basins_minima 8 UINT8 UINT8 (fun _ => 0) dse se im im = Some (Some (1, res)) /\
  ~ flooded se im markers res.
Proof.
  exists (SquSE 1), (HorizSE 1), rows, (Img (Dims 2 2 1) [1; 0; 0; 2]), (Img (Dims 2 2 1) [1; 1; 1; 2]). split; [exact rows_ok|]. split; [unfold enough; cbn; lia|].
  split; [apply element_check_ok; vm_compute; reflexivity|]. split; [apply element_check_ok; vm_compute; reflexivity|]. split; [cbn; lia|]. split; [vm_compute; reflexivity|]. split; [vm_compute; reflexivity|].
  intros (_ & _ & _ & _ & H). destruct (H 0 1 0 1) as (h & B & _); [split; [cbv; repeat split; (discriminate || reflexivity)|reflexivity]|lia|].
  assert (forall x y z, basin_path (HorizSE 1) rows (Img (Dims 2 2 1) [1; 0; 0; 2]) (Img (Dims 2 2 1) [1; 1; 1; 2]) 1 h x y z -> y = 0) as Hy.
  { clear. intros x y z B. induction B as [x y z v (I & R)|x y z x' y' z' v B IH S]; [|apply horiz_row in S; congruence].
    unfold inside in I. cbn in I. assert (z = 0) as -> by lia. destruct (Z.eq_dec y 0) as [|Hy]; [assumption|]. assert (y = 1) as -> by lia. assert (x = 0 \/ x = 1) as [-> | ->] by lia; discriminate. }
  apply Hy in B. discriminate.
Qed.
Print Assumptions C54_basins_refuted.

Example C54_case : geo1_ok UINT8 (CrossSE 1) bumps bumps /\ enough bumps 30 /\ symmetric_se (CrossSE 1) /\ distinct_points (CrossSE 1) /\
  few_minima UINT8 (CrossSE 1) bumps (tmax UINT8) /\
  watershed_minima 30 UINT8 (fun _ => 0) (CrossSE 1) (CrossSE 1) bumps bumps = Some (Some (1, Img (Dims 5 3 1) [0;0;255;0;0; 0;0;255;0;255; 0;0;0;255;0])) /\
  basins_minima 30 UINT8 UINT8 (fun _ => 0) (CrossSE 1) (CrossSE 1) bumps bumps = Some (Some (1, Img (Dims 5 3 1) [1;1;1;2;3; 1;1;1;2;3; 1;1;1;3;3])).
Proof.
  assert (W : wf_img bumps) by (split; [repeat split; cbn; lia|reflexivity]). assert (I : int_sized (sz bumps)) by (repeat split; cbn; lia).
  split; [exact bumps_ok|]. split; [unfold enough; cbn; lia|]. split; [apply element_check_ok; vm_compute; reflexivity|]. split; [apply distinct_check_ok; vm_compute; reflexivity|].
  split; [apply few_all; auto; cbn; lia|]. split; vm_compute; reflexivity.
Qed.
