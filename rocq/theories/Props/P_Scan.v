(** C60 to C63: traversal of the neighbourhoods, local filters, mosaics. *)
From Verif Require Export Proofs.GraphProofs3 Proofs.ScanProofs3 Proofs.GeodesicFilters Props.P_Label Props.P_Geodesic.

(** ** C60 *)

(** The traversal calls the function once for each pixel, in raster order, with exactly the neighbours inside the image, in the
    order of the points.  Missing for the full claim: images narrower than the element, elements wholly to the left of
    their centre, hexagonal elements whose rightmost points are on odd lines. *)
Theorem C60_scan_partial : forall (S : Type) (f : S -> Z -> list Z -> option S) se s st, scannable se s ->
  scan_image f se s st = fold_opt (fun st c => f st (scan_pos s c) (map (fun q => scan_pos s q - scan_pos s c) (nbhd se s c))) (raster s) st.
Proof. intros S f se s st. apply scan_image_ok. Qed.
Print Assumptions C60_scan_partial.

Theorem C60_raster : forall s, (forall x y z, In (x, y, z) (raster s) <-> inside s x y z) /\ NoDup (raster s) /\ map (scan_pos s) (raster s) = zseq (Z.of_nat (length (raster s))).
Proof. intros s. split; [apply raster_In|]. split; [apply raster_NoDup|apply raster_pos]. Qed.
Print Assumptions C60_raster.

(** The neighbours, in the vocabulary of the dilations. *)
Theorem C60_neighbours : forall se s x y z x' y' z', planar se s -> inside s x y z -> (In (x', y', z') (nbhd se s (x, y, z)) <-> inside s x' y' z' /\ sees se x' y' z' x y z).
Proof.
  intros se s x y z x' y' z' HP I. rewrite nbhd_In. split; intros (I' & H); (split; [exact I'|]).
  - rewrite sees_shift by eassumption. destruct H as (p & Hp & E). injection E as -> -> ->. exists p. unfold hex_shift. auto.
  - rewrite sees_shift in H by eassumption. destruct H as (p & Hp & -> & -> & ->). exists p. auto.
Qed.
Print Assumptions C60_neighbours.

(** False in general. *)
Definition record (st : list (Z * list Z)) (c : Z) (offs : list Z) : option (list (Z * list Z)) := Some (st ++ [(c, offs)]).
(** An image of one column, an element with a point two pixels to the left: the function is called with a pixel after the end. *)
Theorem C60_narrow_refuted : exists tr, scan_image record (SE false SE_Generic 1 [(0, 0, 0); (-2, 0, 0)]) (Dims 1 1 1) [] = Some tr /\ exists c offs, In (c, offs) tr /\ dw (Dims 1 1 1) * dh (Dims 1 1 1) * dd (Dims 1 1 1) <= c.
Proof. eexists. split; [vm_compute; reflexivity|]. exists 1. eexists. split; [right; left; reflexivity|cbn; lia]. Qed.
Print Assumptions C60_narrow_refuted.
(** A square of size 2 on an image of one column: the bound of the middle of the line wraps around, and the function is to be
    called more than 2^63 times on a line of one pixel. *)
Theorem C60_wrap_refuted : exists l, line_visits (scaled (SquSE 2)) (Dims 1 1 1) 0 = Some l /\ 2 ^ 63 < Z.of_nat (length l).
Proof.
  unfold line_visits. cbn [dw dh Z.eqb orb]. eexists. split; [reflexivity|]. rewrite app_length, Nat2Z.inj_add. enough (2 ^ 63 < Z.of_nat (length (map (fun c => (0 + c, map snd (line_points (scaled (SquSE 2)) (Dims 1 1 1) ((0 / 1) mod 1) (0 / (1 * 1)))) )
    (zbetween (Z.max 0 (- se_xmin (scaled (SquSE 2)))) (to_size (1 - se_xmax (scaled (SquSE 2)))))))) as H by (rewrite app_length, Nat2Z.inj_add; lia).
  rewrite map_length. unfold zbetween. rewrite map_length, zseq_length, Z2Nat.id; [vm_compute; reflexivity|vm_compute; discriminate].
Qed.
Print Assumptions C60_wrap_refuted.
(** An element of one point, to the left of the centre. *)
Theorem C60_left_refuted : exists tr, scan_image record (SE false SE_Generic 1 [(-1, 0, 0)]) (Dims 2 1 1) [] = Some tr /\ exists c offs, In (c, offs) tr /\ dw (Dims 2 1 1) * dh (Dims 2 1 1) * dd (Dims 2 1 1) <= c.
Proof. eexists. split; [vm_compute; reflexivity|]. exists 2. eexists. split; [right; right; left; reflexivity|cbn; lia]. Qed.
Print Assumptions C60_left_refuted.
(** On the hexagonal grid, the point above alone: from the last pixel of an odd line its place is outside the image, and the
    function is given the first pixel of the same line. *)
Theorem C60_hexagonal_refuted : exists tr, scan_image record (SE true SE_Generic 1 [(0, -1, 0)]) (Dims 2 2 1) [] = Some tr /\
  nbhd (SE true SE_Generic 1 [(0, -1, 0)]) (Dims 2 2 1) (1, 1, 0) = [] /\ In (3, [-1]) tr.
Proof. eexists. split; [vm_compute; reflexivity|]. split; [reflexivity|]. right; right; right; left; reflexivity. Qed.
Print Assumptions C60_hexagonal_refuted.

Ltac scan_ok := split; [repeat split; cbn; lia|]; split; [cbn; lia|]; split; [in_points|]; split;
  [intros p Hp; vm_compute in Hp; repeat (destruct Hp as [<-|Hp]; [vm_compute; split; discriminate|]); destruct Hp|];
  split; [exists (0, 0, 0); split; [vm_compute; tauto|cbn; lia]|];
  first [discriminate | intros _ p Hp Ho; vm_compute in Hp; repeat (destruct Hp as [<-|Hp]; [exists (1, 0, 0); split; [vm_compute; tauto|vm_compute in Ho |- *; first [discriminate|congruence]]|]); destruct Hp].
Example C60_case : scannable (SquSE 1) (Dims 3 2 1) /\ scannable (HexSE 1) (Dims 3 3 1) /\
  nbhd (HexSE 1) (Dims 3 3 1) (0, 1, 0) = [(0, 1, 0); (1, 1, 0); (1, 0, 0); (0, 0, 0); (0, 2, 0); (1, 2, 0)] /\
  scan_image record (SquSE 1) (Dims 3 2 1) [] = Some (map (fun c => (scan_pos (Dims 3 2 1) c, map (fun q => scan_pos (Dims 3 2 1) q - scan_pos (Dims 3 2 1) c) (nbhd (SquSE 1) (Dims 3 2 1) c))) (raster (Dims 3 2 1))).
Proof. split; [scan_ok|]. split; [scan_ok|]. split; vm_compute; reflexivity. Qed.

(** ** C61 *)

(** Mean: the quotient, truncated, of the sum of the values of the neighbours by their number. *)
Theorem C61_mean_partial : forall fuel t se im out, scannable (scaled se) (sz im) -> wf_img im -> wf_img out -> sz out = sz im -> typed_img t im ->
  (forall c, In c (raster (sz im)) -> nbhd (scaled se) (sz im) c <> []) -> Z.of_nat (length (se_points (scaled se))) * 2 ^ nbits t < 2 ^ 53 ->
  exists res, mean fuel false t se im out = Some (Some (1, res)) /\ filtered (fun l v => v = Z.quot (Zsum l) (Z.of_nat (length l))) (scaled se) im res.
Proof.
  intros fuel t se im out Hsc W Wo Es T Ne B.
  assert (H : forall c, In c (raster (sz im)) -> mean_of t (values_on im (nbhd (scaled se) (sz im) c)) = Some (Z.quot (Zsum (values_on im (nbhd (scaled se) (sz im) c))) (Z.of_nat (length (values_on im (nbhd (scaled se) (sz im) c)))))).
  { intros c Hc. apply mean_of_ok.
    - specialize (Ne c Hc). destruct (nbhd (scaled se) (sz im) c); [congruence|discriminate].
    - intros v Hv. apply in_map_iff in Hv as (q & <- & Hq). eapply Forall_forall; [exact T|]. eapply rd_In. apply rd_znth. apply pos_range; [exact W|]. eapply nbhd_raster. exact Hq.
    - unfold values_on. rewrite map_length. assert (length (nbhd (scaled se) (sz im) c) <= length (se_points (scaled se)))%nat by apply nbhd_length. assert (0 < 2 ^ nbits t) by (destruct t; reflexivity). nia. }
  destruct (local_filter_ok fuel (mean_of t) se im out Hsc W Wo Es) as (res & E & F1 & F2 & F3); [intros c Hc; eexists; apply H; exact Hc|].
  exists res. split; [exact E|]. split; [exact F1|]. split; [exact F2|]. intros x y z v P. specialize (F3 x y z v P). rewrite H in F3; [congruence|]. apply raster_In. rewrite <- F1. apply P.
Qed.
Print Assumptions C61_mean_partial.

(** Median: the value of rank n/2 among the n values of the neighbours. *)
Theorem C61_rank_partial : forall fuel ix se im out, scannable (scaled se) (sz im) -> wf_img im -> wf_img out -> sz out = sz im ->
  (forall c, In c (raster (sz im)) -> 0 <= ix (Z.of_nat (length (nbhd (scaled se) (sz im) c))) < Z.of_nat (length (nbhd (scaled se) (sz im) c))) ->
  exists res, rank fuel false ix se im out = Some (Some (1, res)) /\ filtered (fun l v => ranked (ix (Z.of_nat (length l))) l v) (scaled se) im res.
Proof.
  intros fuel ix se im out Hsc W Wo Es Hix.
  assert (H : forall c, In c (raster (sz im)) -> exists v, rank_of ix (values_on im (nbhd (scaled se) (sz im) c)) = Some v /\ ranked (ix (Z.of_nat (length (values_on im (nbhd (scaled se) (sz im) c))))) (values_on im (nbhd (scaled se) (sz im) c)) v).
  { intros c Hc. apply sort_ranked. specialize (Hix c Hc). unfold values_on. rewrite map_length. exact Hix. }
  destruct (local_filter_ok fuel (rank_of ix) se im out Hsc W Wo Es) as (res & E & F1 & F2 & F3); [intros c Hc; destruct (H c Hc) as (v & Hv & _); eauto|].
  exists res. split; [exact E|]. split; [exact F1|]. split; [exact F2|]. intros x y z v P. specialize (F3 x y z v P). destruct (H (x, y, z)) as (v' & Hv & R); [apply raster_In; rewrite <- F1; apply P|]. congruence.
Qed.
Print Assumptions C61_rank_partial.
Theorem C61_median_partial : forall fuel se im out, scannable (scaled se) (sz im) -> wf_img im -> wf_img out -> sz out = sz im ->
  (forall c, In c (raster (sz im)) -> nbhd (scaled se) (sz im) c <> []) ->
  exists res, median fuel false se im out = Some (Some (1, res)) /\ filtered (fun l v => ranked (Z.of_nat (length l) / 2) l v) (scaled se) im res.
Proof.
  intros fuel se im out Hsc W Wo Es Ne. apply (C61_rank_partial fuel (fun n => n / 2) se im out Hsc W Wo Es). intros c Hc. specialize (Ne c Hc). destruct (nbhd (scaled se) (sz im) c); [congruence|]. cbn [length]. lia.
Qed.
Print Assumptions C61_median_partial.

(** The number of different values among the neighbours. *)
Theorem C61_neighbors_partial : forall fuel t2 se im out, scannable (scaled se) (sz im) -> wf_img im -> wf_img out -> sz out = sz im ->
  Z.of_nat (length (se_points (scaled se))) <= tmax t2 ->
  exists res, neighbors fuel false t2 se im out = Some (Some (1, res)) /\ filtered (fun l v => v = Z.of_nat (length (nodup Z.eq_dec l))) (scaled se) im res.
Proof.
  intros fuel t2 se im out Hsc W Wo Es B. destruct (local_filter_ok fuel (count_values t2) se im out Hsc W Wo Es) as (res & E & F1 & F2 & F3); [intros; eexists; reflexivity|].
  exists res. split; [exact E|]. split; [exact F1|]. split; [exact F2|]. intros x y z v P. specialize (F3 x y z v P). unfold count_values in F3. rewrite distinct_count in F3. injection F3 as <-. apply wrap_id.
  assert (length (nodup Z.eq_dec (values_on im (nbhd (scaled se) (sz im) (x, y, z)))) <= length (se_points (scaled se)))%nat.
  { transitivity (length (values_on im (nbhd (scaled se) (sz im) (x, y, z)))); [apply NoDup_incl_length; [apply NoDup_nodup|intros u; apply nodup_In]|]. unfold values_on. rewrite map_length. apply nbhd_length. }
  unfold inty. destruct t2; cbn in *; lia.
Qed.
Print Assumptions C61_neighbors_partial.

(** False in general: called with the same image as input and output, none of the filters ever returns. *)
Theorem C61_inplace_refuted : forall f se im fuel, local_filter fuel true f se im im = Some None.
Proof. intros f se im fuel. unfold local_filter. rewrite same_size_true by reflexivity. cbn [negb]. induction fuel; [reflexivity|exact IHfuel]. Qed.
Print Assumptions C61_inplace_refuted.
(** With the percentile 1, the value after the last one is read. *)
Theorem C61_rank_refuted : forall fuel se im out, scannable (scaled se) (sz im) -> wf_img im -> sz out = sz im -> 0 < dh (sz im) -> 0 < dd (sz im) -> rank fuel false (fun n => n) se im out = None.
Proof.
  intros fuel se im out Hsc W Es Hh Hd. unfold rank, local_filter. rewrite same_size_true by congruence. cbn [negb]. rewrite exec_inout_false, scan_image_ok by exact Hsc. pose proof Hsc as (Hs & Hw & _).
  destruct (raster (sz im)) as [|c r] eqn:E; [exfalso; assert (In (0, 0, 0) (raster (sz im))) as K by (apply raster_In; unfold inside; lia); rewrite E in K; destruct K|].
  cbn [fold_opt]. unfold local_pixel at 1. change (label_se se) with (scaled se). rewrite nb_values_ok by assumption. cbn [option_bind]. unfold rank_of at 1.
  assert (rd (zsort (values_on im (nbhd (scaled se) (sz im) c))) (Z.of_nat (length (values_on im (nbhd (scaled se) (sz im) c)))) = None) as ->; [|reflexivity].
  apply rd_out. rewrite (Permutation_length (zsort_perm _)). lia.
Qed.
Print Assumptions C61_rank_refuted.

Definition im61 : img := Img (Dims 3 3 1) [9;1;8; 2;7;3; 6;4;5].
Example C61_case : scannable (scaled (CrossSE 1)) (sz im61) /\ wf_img im61 /\ typed_img UINT8 im61 /\ (forall c, In c (raster (sz im61)) -> nbhd (scaled (CrossSE 1)) (sz im61) c <> []) /\
  Z.of_nat (length (se_points (scaled (CrossSE 1)))) * 2 ^ nbits UINT8 < 2 ^ 53 /\
  mean 0 false UINT8 (CrossSE 1) im61 im61 = Some (Some (1, Img (Dims 3 3 1) [4;6;4; 6;3;5; 4;5;4])) /\
  median 0 false (CrossSE 1) im61 im61 = Some (Some (1, Img (Dims 3 3 1) [2;8;3; 7;3;7; 4;6;4])) /\
  neighbors 0 false UINT8 (CrossSE 1) im61 im61 = Some (Some (1, Img (Dims 3 3 1) [3;4;3; 4;5;4; 3;4;3])).
Proof.
  split; [scan_ok|]. split; [split; [repeat split; cbn; lia|reflexivity]|]. split; [typed_px|]. split; [|split; [reflexivity|split; [|split]; vm_compute; reflexivity]].
  intros c Hc. vm_compute in Hc. repeat (destruct Hc as [<-|Hc]; [vm_compute; discriminate|]). destruct Hc.
Qed.

(** ** C62 *)

(** With an image of values: one edge for each pair of adjacent labels, weighing the least value over the pixels where they
    meet; the bookkeeping of the graph is right; a node for each label that has another label as neighbour; the value of a node is
    that of a pixel of its label. *)
Theorem C62_mosaicToGraph : forall ev nv se im g0, scannable (scaled se) (sz im) -> wf_img im -> wf_img ev -> sz ev = sz im -> opt_like im nv ->
  exists g, mosaicToGraph (Some ev) nv se im g0 = Some (1, g) /\ good_graph g /\ simple g /\
    (forall a b, (exists i e, live g i e /\ joins e a b) <-> adjacent (scaled se) im a b) /\
    (forall i e a b, live g i e -> joins e a b ->
       (exists p q, (meets (scaled se) im p q a b \/ meets (scaled se) im p q b a) /\ wt e = at3 ev p) /\
       forall p q, meets (scaled se) im p q a b \/ meets (scaled se) im p q b a -> wt e <= at3 ev p) /\
    (forall n, In n (nodes g) <-> exists b, adjacent (scaled se) im n b) /\
    match nv with
    | None => nodeValues g = []
    | Some nv => forall n, In n (nodes g) -> exists p, In p (raster (sz im)) /\ at3 im p = n /\ map_find n (nodeValues g) = Some (at3 nv p)
    end.
Proof.
  intros ev nv se im g0 Hsc W We Ee Ln. eexists. split; [apply (mosaic_ok (Some ev) nv se im g0 Hsc W (conj We Ee) Ln)|]. change (label_se se) with (scaled se).
  destruct (steps_valued ev nv (at3 im) (visits (scaled se) (sz im)) [] graph0 (ninv0 _ _) (einv0 _ _)) as ((G & N & K & V) & (E1 & E2 & E3)). cbn [app] in *. set (g := fold_left _ _ _) in *. clearbody g.
  assert (Mv : forall p q, at3 im p <> at3 im q -> (In (p, q) (visits (scaled se) (sz im)) <-> meets (scaled se) im p q (at3 im p) (at3 im q))) by (intros p q D; rewrite meets_visit; tauto).
  assert (Lv : forall i e, rd (edges g) i = Some e <-> live g i e). { intros i e. split; [|intros (H & _); exact H]. intros H. destruct (E1 i e H) as (S & _). apply rd_live; assumption. }
  split; [exact G|]. split; [intros i j e f a b Hi Hj; apply E3; apply Lv; assumption|]. split; [|split; [|split]].
  - intros a b. split.
    + intros (i & e & Hl & J). apply Lv in Hl. destruct (E1 i e Hl) as (S & ((p, q) & Hv & Jv & _) & _). cbn [fst snd] in *. assert (D : at3 im p <> at3 im q) by (destruct Jv as [(? & ?)|(? & ?)]; congruence). apply Mv in Hv; [|exact D].
      exists p, q. destruct J as [(<- & <-)|(<- & <-)], Jv as [(-> & ->)|(-> & ->)]; auto.
    + intros (p & q & H). assert (exists i e, rd (edges g) i = Some e /\ joins e (at3 im p) (at3 im q)) as (i & e & He & J).
      { destruct H as [H|H]; apply meets_visit in H as (Hv & <- & <- & D); apply (E2 (p, q) Hv D). }
      exists i, e. split; [apply Lv; exact He|]. destruct H as [H|H]; apply meets_visit in H as (_ & <- & <- & _); [exact J|]. unfold joins in *. tauto.
  - intros i e a b Hl J. apply Lv in Hl. destruct (E1 i e Hl) as (S & ((p, q) & Hv & Jv & Wv) & Mn). cbn [fst snd] in *. split.
    + exists p, q. split; [|exact Wv]. assert (D : at3 im p <> at3 im q) by (destruct Jv as [(? & ?)|(? & ?)]; congruence). apply Mv in Hv; [|exact D]. destruct J as [(<- & <-)|(<- & <-)], Jv as [(-> & ->)|(-> & ->)]; auto.
    + intros p' q' H. apply (Mn (p', q')); destruct H as [H|H]; apply meets_visit in H as (Hv' & <- & <- & D); try exact Hv'; [exact J|]. unfold joins in *. cbn [fst snd]. tauto.
  - intros n. rewrite N. split.
    + intros ((p, q) & Hv & D & H). cbn [fst snd] in *. apply Mv in Hv; [|exact D]. destruct H as [->| ->]; [exists (at3 im q)|exists (at3 im p)]; exists p, q; auto.
    + intros (b & p & q & H). exists (p, q). destruct H as [H|H]; apply meets_visit in H as (Hv & <- & <- & D); cbn; auto.
  - destruct nv as [nv|]; [|exact V]. destruct V as (V1 & V2). intros n Hn. apply V1, map_find_keys in Hn. destruct (map_find n (nodeValues g)) as [x|] eqn:F; [|congruence]. destruct (V2 n x F) as ((a, b) & p & Hv & Hp & L & Q). cbn [fst snd] in *. exists p.
    apply visits_In in Hv as (Ha & Hb). split; [destruct Hp; subst; [exact Ha|eapply nbhd_raster; exact Hb]|]. split; [exact L|congruence].
Qed.
Print Assumptions C62_mosaicToGraph.

(** Without values the same labels are joined, but there is an edge for every contact: *)
Theorem C62_plain_partial : forall nv se im g0, scannable (scaled se) (sz im) -> wf_img im -> opt_like im nv ->
  exists g, mosaicToGraph None nv se im g0 = Some (1, g) /\ good_graph g /\
    edges g = map (fun v => Edge (at3 im (fst v)) (at3 im (snd v)) 0) (filter (fun v => negb (at3 im (snd v) =? at3 im (fst v))) (visits (scaled se) (sz im))) /\
    (forall a b, (exists i e, live g i e /\ joins e a b) <-> adjacent (scaled se) im a b) /\
    (forall n, In n (nodes g) <-> exists b, adjacent (scaled se) im n b).
Proof.
  intros nv se im g0 Hsc W Ln. eexists. split; [apply (mosaic_ok None nv se im g0 Hsc W I Ln)|]. change (label_se se) with (scaled se).
  destruct (steps_plain nv (at3 im) (visits (scaled se) (sz im)) [] graph0 (ninv0 _ _) eq_refl) as ((G & N & K & V) & E). cbn [app] in *. set (g := fold_left _ _ _) in *. clearbody g.
  split; [exact G|]. split; [exact E|]. split.
  - intros a b. split.
    + intros (i & e & (He & _) & J). apply rd_In in He. rewrite E in He. apply in_map_iff in He as ((p, q) & <- & Hv). apply filter_In in Hv as (Hv & D). unfold differ in D. cbn [fst snd edge_of] in *. assert (at3 im p <> at3 im q) as D' by (intros Q; rewrite Q, Z.eqb_refl in D; discriminate).
      exists p, q. unfold joins, edge_of in J. cbn [src tgt fst snd] in J. destruct J as [(<- & <-)|(<- & <-)]; [left|right]; apply meets_visit; auto.
    + intros (p & q & H). assert (exists i e, rd (edges g) i = Some e /\ e = edge_of (at3 im) (p, q)) as (i & e & He & ->).
      { assert (In (edge_of (at3 im) (p, q)) (edges g)) as Hin. { rewrite E. apply in_map. apply filter_In. destruct H as [H|H]; apply meets_visit in H as (Hv & <- & <- & D); (split; [exact Hv|]); unfold differ; cbn [fst snd]; apply negb_true_iff, Z.eqb_neq; congruence. }
        apply In_rd in Hin as (i & _ & Hi). eauto. }
      exists i, (edge_of (at3 im) (p, q)). destruct H as [H|H]; apply meets_visit in H as (_ & <- & <- & D); (split; [split; [exact He|cbn; lia]|]); unfold joins, edge_of; cbn; auto.
  - intros n. rewrite N. split.
    + intros ((p, q) & Hv & D & H). cbn [fst snd] in *. assert (meets (scaled se) im p q (at3 im p) (at3 im q)) as M by (apply meets_visit; auto). destruct H as [->| ->]; [exists (at3 im q)|exists (at3 im p)]; exists p, q; auto.
    + intros (b & p & q & H). exists (p, q). destruct H as [H|H]; apply meets_visit in H as (Hv & <- & <- & D); cbn; auto.
Qed.
Print Assumptions C62_plain_partial.
Theorem C62_plain_refuted : exists se im g, scannable (scaled se) (sz im) /\ wf_img im /\ mosaicToGraph None None se im graph0 = Some (1, g) /\ ~ simple g.
Proof.
  exists (CrossSE 1), (Img (Dims 2 1 1) [1; 2]), (addEdge (addEdge graph0 (Edge 1 2 0) false) (Edge 2 1 0) false). split; [scan_ok|]. split; [split; [repeat split; cbn; lia|reflexivity]|]. split; [vm_compute; reflexivity|].
  intros H. assert (0 = 1); [|lia]. apply (H 0 1 (Edge 1 2 0) (Edge 2 1 0) 1 2); [split; [reflexivity|cbn; lia]|split; [reflexivity|cbn; lia]|left; split; reflexivity|right; split; reflexivity].
Qed.
Print Assumptions C62_plain_refuted.

Definition mosaic62 : img := Img (Dims 3 2 1) [1;1;2; 3;3;2].
Definition values62 : img := Img (Dims 3 2 1) [9;4;7; 5;6;2].
Example C62_case : scannable (scaled (CrossSE 1)) (sz mosaic62) /\ wf_img mosaic62 /\ wf_img values62 /\ opt_like mosaic62 (Some values62) /\
  mosaicToGraph (Some values62) (Some values62) (CrossSE 1) mosaic62 graph0 =
  Some (1, Graph 3 [1; 2; 3] [(1, 4); (2, 2); (3, 6)] [Edge 1 3 4; Edge 1 2 4; Edge 3 2 2] [(1, [0; 1]); (2, [1; 2]); (3, [0; 2])]).
Proof. assert (A : wf_img values62) by (split; [repeat split; cbn; lia|reflexivity]). split; [scan_ok|]. split; [split; [repeat split; cbn; lia|reflexivity]|]. split; [exact A|]. split; [split; [exact A|reflexivity]|]. vm_compute. reflexivity. Qed.

(** ** C63 *)

(** Every pixel whose label is a node gets the smallest label connected to its own; the others get 0. *)
Theorem C63_graphToMosaic_partial : forall g im out t turns fuel, good_graph g -> (forall n, In n (nodes g) -> In n (map fst (nodeEdges g))) -> nodes g <> [] -> (forall n, In n (nodes g) -> inty t n) ->
  wf_img im -> wf_img out -> sz im = sz out -> (length (nodes g) < turns)%nat -> (length (nodes g) < fuel)%nat ->
  exists res, graphToMosaic turns fuel t im g out = Some (Some (1, res)) /\ sz res = sz im /\ wf_img res /\
    forall x y z v o, pixel_is im x y z v -> pixel_is res x y z o -> (In v (nodes g) -> connected g v o /\ forall m, connected g v m -> o <= m) /\ (~ In v (nodes g) -> o = 0).
Proof. exact graphToMosaic_ok. Qed.
Print Assumptions C63_graphToMosaic_partial.

(** The segmentation by a threshold: graph of the mosaic weighted by [ev], removal of the edges above [th], drawing of the
    result.  Each pixel gets the smallest label that can be reached from its own through contacts of value at most [th]; two
    pixels get the same label exactly when their regions are merged. *)
Theorem C63_threshold_partial : forall ev nv se im g0 th t out turns fuel, scannable (scaled se) (sz im) -> wf_img im -> wf_img ev -> sz ev = sz im -> opt_like im nv -> wf_img out -> sz im = sz out -> typed_img t im ->
  (exists x y z v, pixel_is im x y z v) ->
  (forall x y z v, pixel_is im x y z v -> exists b, adjacent (scaled se) im v b) ->
  exists g, mosaicToGraph (Some ev) nv se im g0 = Some (1, g) /\
    ((length (nodes g) < turns)%nat -> (length (nodes g) < fuel)%nat ->
     exists res, graphToMosaic turns fuel t im (removeHighEdges g th) out = Some (Some (1, res)) /\ sz res = sz im /\ wf_img res /\
       (forall x y z v o, pixel_is im x y z v -> pixel_is res x y z o -> merged (scaled se) im ev th v o /\ forall m, merged (scaled se) im ev th v m -> o <= m) /\
       (forall x y z v o x' y' z' v' o', pixel_is im x y z v -> pixel_is res x y z o -> pixel_is im x' y' z' v' -> pixel_is res x' y' z' o' -> (o = o' <-> merged (scaled se) im ev th v v'))).
Proof.
  intros ev nv se im g0 th t out turns fuel Hsc W We Ee Ln Wo Es T (x0 & y0 & z0 & v0 & P0) Hadj. destruct (C62_mosaicToGraph ev nv se im g0 Hsc W We Ee Ln) as (g & E & G & Sm & Ad & Wt & Nd & _). exists g. split; [exact E|]. intros Ht Hf.
  destruct (remove_if_ok (fun e => th <? wt e) g G) as (G' & M & N' & _). pose proof (remove_if_keys (fun e => th <? wt e) g G) as K'. fold (removeHighEdges g th) in *.
  assert (Lv : forall i e, live (removeHighEdges g th) i e <-> live g i e /\ wt e <= th). { intros i e. rewrite (M i e). cbn beta. rewrite Z.ltb_lt. split; intros (A & B); (split; [exact A|]); lia. }
  assert (Cn : forall a b, connected (removeHighEdges g th) a b <-> merged (scaled se) im ev th a b).
  { intros a b. split; intros H.
    - induction H as [|b c i e H IH L J]; [constructor|]. apply Lv in L as (L & Hw). destruct (Wt i e b c L J) as ((p & q & Hm & Ew) & _). apply merged_step with b p q; [exact IH|exact Hm|lia].
    - induction H as [|b c p q H IH Hm Hw]; [constructor|]. assert (adjacent (scaled se) im b c) as A by (exists p, q; exact Hm). apply Ad in A as (i & e & L & J). destruct (Wt i e b c L J) as (_ & Mn). specialize (Mn p q Hm). apply conn_step with b i e; [exact IH|apply Lv; split; [exact L|lia]|exact J]. }
  assert (Ty : forall n, In n (nodes g) -> inty t n).
  { assert (Q : forall p, In p (raster (sz im)) -> inty t (at3 im p)) by (intros p Hp; eapply Forall_forall; [exact T|]; eapply rd_In, rd_znth, pos_range; assumption).
    intros n Hn. apply Nd in Hn as (b & p & q & [Hm|Hm]); apply meets_visit in Hm as (Hv & <- & <- & _); apply visits_In in Hv as (Hp & Hq); apply Q; [exact Hp|eapply nbhd_raster; exact Hq]. }
  assert (Hn : forall x y z v, pixel_is im x y z v -> In v (nodes g)) by (intros x y z v P; apply Nd; eapply Hadj; exact P).
  destruct (graphToMosaic_ok (removeHighEdges g th) im out t turns fuel G') as (res & R & Sr & Wr & HR); try assumption; try (rewrite N'; assumption).
  - intros n H. rewrite N' in H. rewrite K'. pose proof H as H'. apply Nd in H' as (b & A). apply Ad in A as (i & e & L & J). pose proof G as (_ & _ & _ & _ & _ & G6 & _). apply (G6 i e n L). destruct J as [(<- & _)|(_ & <-)]; unfold touches; auto.
  - rewrite N'. intros Q. specialize (Hn _ _ _ _ P0). rewrite Q in Hn. destruct Hn.
  - exists res. split; [exact R|]. split; [exact Sr|]. split; [exact Wr|]. rewrite N' in HR.
    assert (D : forall x y z v o, pixel_is im x y z v -> pixel_is res x y z o -> connected (removeHighEdges g th) v o /\ forall m, connected (removeHighEdges g th) v m -> o <= m) by (intros x y z v o P Po; apply (HR x y z v o P Po); eapply Hn; exact P).
    split; [intros x y z v o P Po; destruct (D x y z v o P Po) as (D1 & D2); split; [apply Cn; exact D1|intros m Hm; apply D2, Cn; exact Hm]|].
    intros x y z v o x' y' z' v' o' P Po P' Po'. destruct (D _ _ _ _ _ P Po) as (D1 & D2), (D _ _ _ _ _ P' Po') as (D1' & D2'). rewrite <- Cn. split.
    + intros <-. eapply connected_trans; [exact D1|apply connected_sym; exact D1'].
    + intros H. assert (o <= o') by (apply D2; eapply connected_trans; [exact H|exact D1']). assert (o' <= o) by (apply D2'; eapply connected_trans; [apply connected_sym; exact H|exact D1]). lia.
Qed.
Print Assumptions C63_threshold_partial.

(** False in general: a mosaic of one region has no edges, hence no nodes, and nothing is drawn. *)
Theorem C63_single_refuted : forall v out turns fuel, exists g, mosaicToGraph None None (CrossSE 1) (Img (Dims 2 1 1) [v; v]) graph0 = Some (1, g) /\ graphToMosaic (S turns) fuel UINT8 (Img (Dims 2 1 1) [v; v]) g out = Some (Some (-100, out)).
Proof.
  intros v out turns fuel. exists graph0. split; [|reflexivity]. rewrite mosaic_ok; [|scan_ok|split; [repeat split; cbn; lia|reflexivity]|exact I|exact I].
  change (visits (scaled (CrossSE 1)) (sz (Img (Dims 2 1 1) [v; v]))) with [((0, 0, 0), (0, 0, 0)); ((0, 0, 0), (1, 0, 0)); ((1, 0, 0), (1, 0, 0)); ((1, 0, 0), (0, 0, 0))].
  assert (K : forall p q, at3 (Img (Dims 2 1 1) [v; v]) p = v -> at3 (Img (Dims 2 1 1) [v; v]) q = v -> forall g, mstep None None (at3 (Img (Dims 2 1 1) [v; v])) g (p, q) = g) by (intros p q Hp Hq g; unfold mstep; cbn [fst snd]; rewrite Hp, Hq, Z.eqb_refl; reflexivity).
  cbn [fold_left]. rewrite !K by reflexivity. reflexivity.
Qed.
Print Assumptions C63_single_refuted.

Example C63_case : scannable (scaled (CrossSE 1)) (sz mosaic62) /\ typed_img UINT8 mosaic62 /\ (forall x y z v, pixel_is mosaic62 x y z v -> exists b, adjacent (scaled (CrossSE 1)) mosaic62 v b) /\
  option_bind (mosaicToGraph (Some values62) None (CrossSE 1) mosaic62 graph0) (fun r => graphToMosaic 4 4 UINT8 mosaic62 (removeHighEdges (snd r) 3) mosaic62) = Some (Some (1, Img (Dims 3 2 1) [1;1;2; 2;2;2])).
Proof.
  split; [scan_ok|]. split; [typed_px|]. split; [|vm_compute; reflexivity]. intros x y z v (_ & R). apply rd_In in R. cbn in R.
  assert (v = 1 \/ v = 2 \/ v = 3) as [->|[->| ->]] by lia; [exists 2, (1, 0, 0), (2, 0, 0)|exists 1, (2, 0, 0), (1, 0, 0)|exists 1, (0, 1, 0), (0, 0, 0)]; left; (split; [vm_compute; tauto|]); (split; [vm_compute; tauto|]); (split; [reflexivity|lia]).
Qed.
