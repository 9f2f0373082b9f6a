(** Theorems for C91 to C94: arrow images, propagation along arrows, fast extrema. *)
From Coq Require Import String.
From Verif Require Export Proofs.ArrowProofs4 Props.P_Label.
From Verif Require Import Props.P_Morph Props.P_Geodesic.

(** ** C91.  arrow sets bit k of a pixel exactly when the operation holds between the pixel and the one that point number k of
    the element leads to (the border value outside the image); the element is scaled by its size. *)
Theorem C91_arrow_partial : forall t2 junk c op bv se im out, operation op -> arrow_ok t2 (scaled se) c im out ->
  exists res, arrow_diff t2 junk c op bv se im out = Some (1, res) /\ arrows_of t2 (says op) (scaled se) bv im res /\ no_other_bits (scaled se) res.
Proof.
  intros t2 junk c op bv se im out Ho H. destruct (cmp_says op Ho) as (cmp & E & Hc). unfold arrow_diff, arrow_exec_diff. rewrite E. rewrite same_size_true by (symmetry; apply H). cbn [negb].
  destruct (arrow_run t2 junk c cmp (says op) bv (scaled se) im out Hc H) as (res & E1 & A & B). change (label_se se) with (scaled se). rewrite E1. exists res. auto.
Qed.
Print Assumptions C91_arrow_partial.

(** C91.  The same when the two images have the same type, for elements of size 1 but the rhombicuboctahedron. *)
Theorem C91_same_type_partial : forall t junk cs op bv se im out, operation op -> arrow_ok t se (cs O) im out -> se_size se = 1 -> se_type se <> SE_Rhombicuboctahedron ->
  exists res, arrow_same t junk cs op bv se false im out = Some (1, res) /\ arrows_of t (says op) se bv im res /\ no_other_bits se res.
Proof.
  intros t junk cs op bv se im out Ho H H1 HT. destruct (cmp_says op Ho) as (cmp & E & Hc). rewrite (arrow_same_ok t junk cs op cmp bv se im out E H1 HT).
  destruct (arrow_run t junk (cs O) cmp (says op) bv se im out Hc H) as (res & E1 & A & B). rewrite E1. exists res. auto.
Qed.
Print Assumptions C91_same_type_partial.

(** C91.  Any other operation is an error that leaves the output unchanged. *)
Theorem C91_operations : forall t t2 junk c cs op bv se alias im out, ~ operation op ->
  arrow_diff t2 junk c op bv se im out = Some (-100, out) /\ arrow_same t junk cs op bv se alias im out = Some (-100, out).
Proof.
  intros t t2 junk c cs op bv se alias im out N. unfold arrow_diff, arrow_same. replace (arrow_cmp op) with (@None (Z -> Z -> bool)); [auto|]. unfold operation in N. unfold arrow_cmp.
  repeat match goal with |- context [String.eqb op ?s] => destruct (String.eqb_spec op s); [exfalso; tauto|] end. reflexivity.
Qed.
Print Assumptions C91_operations.

Definition terrain : img := Img (Dims 5 3 1) [3;3;1;5;5; 3;2;4;5;6; 7;2;4;4;6].
Definition blank15 : img := Img (Dims 5 3 1) (repeat 9 15).
Lemma terrain_good : good_img terrain.
Proof. apply good_ex; [split; [repeat split; cbn; lia|reflexivity]|cbn; lia|cbn; lia|cbn; lia]. Qed.
Lemma blank15_wf : wf_img blank15.
Proof. split; [repeat split; cbn; lia|reflexivity]. Qed.
Lemma terrain_ok se : near_points se (Dims 5 3 1) -> se_points se <> [] -> (length (se_points se) <= 64)%nat -> arrow_ok UINT8 se (one_thread O) terrain blank15.
Proof.
  intros A B C. split; [reflexivity|]. split; [exact terrain_good|]. split; [exact blank15_wf|]. split; [reflexivity|]. split; [apply one_thread_legal; cbn; lia|]. auto.
Qed.

Example C91_case : operation ">" /\ operation "<=" /\ arrow_ok UINT8 (scaled (CrossSE 1)) (one_thread O) terrain blank15 /\ arrow_ok UINT8 (HexSE 1) (one_thread O) terrain blank15 /\
  arrow_diff UINT8 (fun _ => 77) (one_thread O) ">" 255 (CrossSE 1) terrain blank15 = Some (1, Img (Dims 5 3 1) [0;18;0;4;0; 2;0;12;20;12; 10;0;4;0;4]) /\
  arrow_same UINT8 (fun _ => 77) one_thread "<=" 255 (HexSE 1) false terrain blank15 = Some (1, Img (Dims 5 3 1) [127;61;127;79;127; 61;123;103;79;103; 121;127;103;127;103]).
Proof.
  split; [unfold operation; tauto|]. split; [unfold operation; tauto|]. split; [apply terrain_ok; [in_points|discriminate|apply Nat.leb_le; vm_compute; reflexivity]|]. split; [apply terrain_ok; [in_points|discriminate|apply Nat.leb_le; vm_compute; reflexivity]|]. split; vm_compute; reflexivity.
Qed.

(** C91.  In place, the arrows are those of a new image whose pixels were never written. *)
Theorem C91_inplace_refuted : exists im se c1 c2 r1 r2, good_img im /\ arrow_ok UINT8 se (one_thread O) im im /\ se_size se = 1 /\
  arrow_same UINT8 c1 one_thread ">" 255 se true im im = Some (1, r1) /\ arrow_same UINT8 c2 one_thread ">" 255 se true im im = Some (1, r2) /\ r1 <> r2.
Proof.
  eexists terrain, (HorizSE 1), (fun _ => 77), (fun k => k), _, _. split; [exact terrain_good|]. split.
  { split; [reflexivity|]. split; [exact terrain_good|]. split; [apply terrain_good|]. split; [reflexivity|]. split; [apply one_thread_legal; cbn; lia|]. split; [in_points|]. split; [discriminate|apply Nat.leb_le; vm_compute; reflexivity]. }
  split; [reflexivity|]. split; [vm_compute; reflexivity|]. split; [vm_compute; reflexivity|]. discriminate.
Qed.
Print Assumptions C91_inplace_refuted.

(** C91.  When the two images have the same type, an element of size 2 gives the arrows of the image of arrows, not the arrows
    of the image for the element of size 2. *)
Theorem C91_size_refuted : exists im out se res, good_img im /\ arrow_ok UINT8 (scaled se) (one_thread O) im out /\ se_size se = 2 /\
  arrow_same UINT8 (fun _ => 77) one_thread ">" 255 se false im out = Some (1, res) /\ ~ arrows_of UINT8 (says ">") (scaled se) 255 im res.
Proof.
  eexists terrain, blank15, (HorizSE 2), _. split; [exact terrain_good|]. split; [apply terrain_ok; [in_points|discriminate|apply Nat.leb_le; vm_compute; reflexivity]|]. split; [reflexivity|]. split; [vm_compute; reflexivity|].
  intros (_ & _ & H). assert (P : pixel_is terrain 1 0 0 3) by (split; [unfold inside; cbn; lia|reflexivity]).
  destruct (H 1 0 0 3 0 P) as (_ & B); [split; [unfold inside; cbn; lia|reflexivity]|].
  assert (E : Z.testbit 0 1 = true); [|discriminate]. apply (B 1 (1, 0, 0)); [vm_compute; reflexivity|reflexivity|]. exists 1.
  split; [left; split; [unfold inside; cbn; lia|reflexivity]|]. unfold says. right. left. split; [reflexivity|lia].
Qed.
Print Assumptions C91_size_refuted.

(** C91.  With more points than bits the last arrows are lost: UINT8 has no bit for the ninth point of the square. *)
Theorem C91_bits_refuted : exists im im' r, good_img im /\ good_img im' /\ sz im' = sz im /\
  rd (se_points (SquSE 1)) 8 = Some (1, 1, 0) /\ pixel_is im 0 0 0 5 /\ pixel_is im 1 1 0 3 /\ pixel_is im' 0 0 0 5 /\ pixel_is im' 1 1 0 5 /\
  arrow_ok UINT8 (SquSE 1) (one_thread O) im im /\ arrow_ok UINT8 (SquSE 1) (one_thread O) im' im' /\
  (exists res, arrow_same UINT8 (fun _ => 77) one_thread ">" 255 (SquSE 1) false im im = Some (1, res) /\ pixel_is res 0 0 0 r) /\
  (exists res, arrow_same UINT8 (fun _ => 77) one_thread ">" 255 (SquSE 1) false im' im' = Some (1, res) /\ pixel_is res 0 0 0 r).
Proof.
  assert (G : forall l, length l = 4%nat -> good_img (Img (Dims 2 2 1) l)) by (intros l L; apply good_ex; [split; [repeat split; cbn; lia|cbn [pixs]; rewrite L; reflexivity]|cbn; lia|cbn; lia|cbn; lia]).
  assert (K : forall l, length l = 4%nat -> arrow_ok UINT8 (SquSE 1) (one_thread O) (Img (Dims 2 2 1) l) (Img (Dims 2 2 1) l)).
  { intros l L. split; [reflexivity|]. split; [apply G; exact L|]. split; [apply (G l L)|]. split; [reflexivity|]. split; [apply one_thread_legal; cbn; lia|]. split; [in_points|]. split; [discriminate|apply Nat.leb_le; vm_compute; reflexivity]. }
  exists (Img (Dims 2 2 1) [5;5;5;3]), (Img (Dims 2 2 1) [5;5;5;5]), 0.
  split; [apply G; reflexivity|]. split; [apply G; reflexivity|]. split; [reflexivity|]. split; [vm_compute; reflexivity|].
  do 4 (split; [split; [unfold inside; cbn; lia|reflexivity]|]). split; [apply K; reflexivity|]. split; [apply K; reflexivity|].
  split; (eexists; split; [vm_compute; reflexivity|split; [unfold inside; cbn; lia|reflexivity]]).
Qed.
Print Assumptions C91_bits_refuted.

(** ** C92.  arrowMin sets bit k exactly when the neighbour of point k has the lowest value among the pixel and its neighbours. *)
Theorem C92_arrowMin_partial : forall t t2 c bv se im out, arrow_ok t2 se c im out -> flat_se se ->
  exists res, arrowMin t t2 c bv se im out = Some (1, res) /\ min_arrows t2 se bv im res.
Proof. exact arrowMin_ok. Qed.
Print Assumptions C92_arrowMin_partial.

(** C92.  arrowMinStep sets bit k exactly when the neighbour of point k is the lowest of those that are not below the pixel,
    where such a neighbour is lower than the border value; elsewhere it points to every neighbour below the pixel. *)
Theorem C92_arrowMinStep_partial : forall t c bv se im out, arrow_ok t (noCenter se) c im out -> flat_se (noCenter se) ->
  exists res, arrowMinStep t c bv se im out = Some (1, res) /\ step_arrows t (noCenter se) bv im res.
Proof. exact arrowMinStep_ok. Qed.
Print Assumptions C92_arrowMinStep_partial.

Example C92_case : arrow_ok UINT8 (CrossSE 1) (one_thread O) terrain blank15 /\ flat_se (CrossSE 1) /\ arrow_ok UINT8 (noCenter (CrossSE 1)) (one_thread O) terrain blank15 /\ flat_se (noCenter (CrossSE 1)) /\
  arrowMin UINT8 UINT8 (one_thread O) 255 (CrossSE 1) terrain blank15 = Some (1, Img (Dims 5 3 1) [19;2;1;4;5; 2;17;8;20;12; 2;9;4;5;4]) /\
  arrowMinStep UINT8 (one_thread O) 255 (CrossSE 1) terrain blank15 = Some (1, Img (Dims 5 3 1) [9;2;2;9;2; 4;8;8;4;8; 15;4;5;2;4]).
Proof.
  split; [apply terrain_ok; [in_points|discriminate|apply Nat.leb_le; vm_compute; reflexivity]|]. split; [in_points|]. split; [apply terrain_ok; [in_points|discriminate|apply Nat.leb_le; vm_compute; reflexivity]|]. split; [in_points|]. split; vm_compute; reflexivity.
Qed.

(** C92.  With a three-dimensional element arrowMin reads the slice of the pixel instead of the slice of the neighbour. *)
Theorem C92_slices_refuted : exists im out res, good_img im /\ arrow_ok UINT8 (Cross3DSE 1) (one_thread O) im out /\
  arrowMin UINT8 UINT8 (one_thread O) 255 (Cross3DSE 1) im out = Some (1, res) /\ ~ min_arrows UINT8 (Cross3DSE 1) 255 im res.
Proof.
  set (im := Img (Dims 1 1 2) [5;3]). assert (G : good_img im) by (apply good_ex; [split; [repeat split; cbn; lia|reflexivity]|cbn; lia|cbn; lia|cbn; lia]).
  eexists im, im, _. split; [exact G|]. split.
  { split; [reflexivity|]. split; [exact G|]. split; [apply G|]. split; [reflexivity|]. split; [apply one_thread_legal; cbn; lia|]. split; [in_points|]. split; [discriminate|apply Nat.leb_le; vm_compute; reflexivity]. }
  split; [vm_compute; reflexivity|]. intros (_ & _ & H).
  assert (P : pixel_is im 0 0 0 5) by (split; [unfold inside; cbn; lia|reflexivity]).
  destruct (H 0 0 0 5 65 P) as (_ & B); [split; [unfold inside; cbn; lia|reflexivity]|].
  destruct (B 0 (0, 0, 0)) as (B1 & _); [vm_compute; reflexivity|reflexivity|]. destruct (B1 eq_refl) as (u & Ru & (_ & L)).
  assert (u = 5). { destruct Ru as [R|(N & _)]; [exact (LoopFacts.pixel_is_fun _ _ _ _ _ _ R P)|]. exfalso. apply N. unfold inside. cbn. lia. }
  assert (u <= 3); [|lia]. apply L. right. exists (0, 0, 1). split; [vm_compute; tauto|]. left. split; [unfold inside; cbn; lia|reflexivity].
Qed.
Print Assumptions C92_slices_refuted.

(** C92.  A pixel higher than all its neighbours gets arrows to all of them, although none of them is a step up. *)
Theorem C92_summit_refuted : exists im out res v, good_img im /\ arrow_ok UINT8 (noCenter (CrossSE 1)) (one_thread O) im out /\
  arrowMinStep UINT8 (one_thread O) 255 (CrossSE 1) im out = Some (1, res) /\
  pixel_is im 1 1 0 9 /\ pixel_is res 1 1 0 v /\
  (forall p u, In p (se_points (noCenter (CrossSE 1))) -> reads_ahead (noCenter (CrossSE 1)) im 255 1 1 0 p u -> u < 9) /\
  forall k p, rd (se_points (noCenter (CrossSE 1))) k = Some p -> Z.testbit v k = true.
Proof.
  set (im := Img (Dims 3 3 1) [1;2;3; 4;9;5; 6;7;8]). assert (G : good_img im) by (apply good_ex; [split; [repeat split; cbn; lia|reflexivity]|cbn; lia|cbn; lia|cbn; lia]).
  eexists im, im, _, 15. split; [exact G|]. split.
  { split; [reflexivity|]. split; [exact G|]. split; [apply G|]. split; [reflexivity|]. split; [apply one_thread_legal; cbn; lia|]. split; [in_points|]. split; [discriminate|apply Nat.leb_le; vm_compute; reflexivity]. }
  split; [vm_compute; reflexivity|]. split; [split; [unfold inside; cbn; lia|reflexivity]|]. split; [split; [unfold inside; cbn; lia|reflexivity]|]. split.
  - intros p u Hp Ru. vm_compute in Hp. repeat (destruct Hp as [<-|Hp]; [destruct Ru as [(_ & R)|(N & _)]; [vm_compute in R; injection R as <-; lia|exfalso; apply N; unfold inside; cbn; lia]|]). destruct Hp.
  - intros k p R. apply rd_Some_range in R. change (Z.of_nat (length (se_points (noCenter (CrossSE 1))))) with 4 in R. assert (k = 0 \/ k = 1 \/ k = 2 \/ k = 3) as [-> | [-> | [-> | ->]]] by lia; reflexivity.
Qed.
Print Assumptions C92_summit_refuted.

(** ** C93.  The propagation from a pixel returns; it writes the value exactly at the pixels that a path of arrows reaches from
    it, through pixels that do not have the value. *)
Theorem C93_propagate : forall fuel t se arrows out v x0 y0 z0, is_signed t = false -> wf_img arrows -> int_sized (sz arrows) -> int_points se -> (length (se_points se) <= 64)%nat ->
  wf_img out -> sz out = sz arrows -> inside (sz arrows) x0 y0 z0 -> (length (pixs out) < fuel)%nat ->
  exists res, arrowPropagate fuel t se arrows out v (voxel_offset (dw (sz arrows)) (dh (sz arrows)) x0 y0 z0) = Some (Some res) /\ propagated t se arrows out v x0 y0 z0 res.
Proof. intros fuel t se arrows out v x0 y0 z0 Hu W Hs HP HL Wo So I F. apply arrowPropagate_ok; assumption. Qed.
Print Assumptions C93_propagate.

(** C93.  When the value is nowhere, the written pixels are all those that arrows reach. *)
Inductive arrow_path (t : ity) (se : strelt) (arrows : img) (x0 y0 z0 : Z) : Z -> Z -> Z -> Prop :=
| arrow_one x y z : leads t se arrows x0 y0 z0 x y z -> arrow_path t se arrows x0 y0 z0 x y z
| arrow_more x y z x' y' z' : arrow_path t se arrows x0 y0 z0 x' y' z' -> leads t se arrows x' y' z' x y z -> arrow_path t se arrows x0 y0 z0 x y z.
Theorem C93_fresh : forall t se arrows out v x0 y0 z0 res x y z o, wf_img out -> sz out = sz arrows -> (forall x y z, ~ pixel_is out x y z v) ->
  propagated t se arrows out v x0 y0 z0 res -> pixel_is out x y z o -> (pixel_is res x y z v <-> arrow_path t se arrows x0 y0 z0 x y z).
Proof.
  intros t se arrows out v x0 y0 z0 res x y z o Wo So N (_ & _ & H) Po.
  assert (E : forall x y z, reached t se arrows out v x0 y0 z0 x y z <-> arrow_path t se arrows x0 y0 z0 x y z).
  { intros a b c. split.
    - induction 1; [apply arrow_one; assumption|eapply arrow_more; eassumption].
    - assert (Q : forall a b c, inside (sz arrows) a b c -> exists w, pixel_is out a b c w /\ w <> v) by (intros a1 b1 c1 I; destruct (LoopFacts.pixel_exists out a1 b1 c1 Wo ltac:(rewrite So; exact I)) as (w & Pw); exists w; split; [exact Pw|intros ->; exact (N _ _ _ Pw)]).
      induction 1 as [a b c L|a b c a' b' c' A IH L].
      + destruct (Q a b c) as (w & Pw & Nw); [destruct L as (? & ? & ? & _ & _ & _ & _ & _ & _ & _ & I); exact I|]. eapply reached_first; eassumption.
      + destruct (Q a b c) as (w & Pw & Nw); [destruct L as (? & ? & ? & _ & _ & _ & _ & _ & _ & _ & I); exact I|]. eapply reached_next; eassumption. }
  rewrite <- E. destruct (H x y z o Po) as [(R & P)|(R & P)]; [tauto|]. split; [|contradiction]. intros P'. pose proof (LoopFacts.pixel_is_fun _ _ _ _ _ _ P' P) as <-. destruct (N _ _ _ Po).
Qed.
Print Assumptions C93_fresh.

Definition plateaus : img := Img (Dims 5 3 1) [9;10;0;1;10; 12;8;8;5;4; 0;5;6;10;8].
Example C93_case : wf_img plateaus /\ int_sized (sz plateaus) /\ int_points (noCenter (CrossSE 1)) /\ inside (sz plateaus) 0 0 0 /\
  arrowPropagate 16 UINT8 (noCenter (CrossSE 1)) plateaus blank15 1 0 = Some (Some (Img (Dims 5 3 1) [1;1;9;9;9; 1;1;1;9;9; 1;1;1;9;9])).
Proof.
  split; [split; [repeat split; cbn; lia|reflexivity]|]. split; [repeat split; cbn; lia|]. split; [in_points|]. split; [unfold inside; cbn; lia|]. vm_compute. reflexivity.
Qed.

(** ** C94.  fastMinima (fastMaxima), run by one thread with distinct images, marks the pixels from which one cannot go down
    (up). *)
Theorem C94_fastMinima_partial : forall fuel t junk c1 c2 se im out, fast_ok fuel t c1 c2 se im out ->
  exists res, fastMinima fuel t junk c1 c2 se false im out = Some (Some (1, res)) /\ marks t (fun x y z v => ~ can_descend se im x y z v) im res.
Proof. exact fastMinima_ok. Qed.
Print Assumptions C94_fastMinima_partial.
Theorem C94_fastMaxima_partial : forall fuel t junk c1 c2 se im out, fast_ok fuel t c1 c2 se im out ->
  exists res, fastMaxima fuel t junk c1 c2 se false im out = Some (Some (1, res)) /\ marks t (fun x y z v => ~ can_ascend se im x y z v) im res.
Proof. exact fastMaxima_ok. Qed.
Print Assumptions C94_fastMaxima_partial.

Lemma terrain_fast se : se_odd se = false -> se_size se = 1 -> se_type se <> SE_Rhombicuboctahedron -> near_points se (Dims 5 3 1) -> element_check se = true ->
  se_points (noCenter se) <> [] -> Z.of_nat (length (se_points (noCenter se))) <= 8 -> fast_ok 16 UINT8 one_thread one_thread se terrain blank15.
Proof.
  intros Ho H1 HT HN HC HE HB. destruct (element_check_ok se HC) as (A & B). split; [reflexivity|]. split; [exact terrain_good|]. split; [typed_px|]. split; [exact blank15_wf|]. split; [reflexivity|].
  split; [repeat split; cbn; lia|]. split; [exact H1|]. split; [exact HT|]. split; [exact B|]. split; [exact HN|]. split; [unfold planar; rewrite Ho; discriminate|]. split; [exact A|]. split; [exact HE|]. split; [exact HB|].
  split; [apply one_thread_legal; cbn; lia|]. split; [apply one_thread_legal; cbn; lia|]. cbn. lia.
Qed.
Example C94_case : fast_ok 16 UINT8 one_thread one_thread (CrossSE 1) terrain blank15 /\ fast_ok 16 UINT8 one_thread one_thread (SquSE 1) terrain blank15 /\
  fastMinima 16 UINT8 (fun _ => 77) one_thread one_thread (CrossSE 1) false terrain blank15 = Some (Some (1, Img (Dims 5 3 1) [0;0;255;0;0; 0;255;0;0;0; 0;255;0;0;0])) /\
  fastMaxima 16 UINT8 (fun _ => 77) one_thread one_thread (CrossSE 1) false terrain blank15 = Some (Some (1, Img (Dims 5 3 1) [0;0;0;0;0; 0;0;0;0;255; 255;0;0;0;255])).
Proof.
  split; [apply terrain_fast; try reflexivity; try discriminate; try in_points|]. split; [apply terrain_fast; try reflexivity; try discriminate; try in_points|]. split; vm_compute; reflexivity.
Qed.

(** C94.  In place, the input is filled with 0 before it is read, and every pixel is marked. *)
Theorem C94_inplace_refuted : exists im res, fast_ok 16 UINT8 one_thread one_thread (CrossSE 1) im im /\
  fastMinima 16 UINT8 (fun _ => 77) one_thread one_thread (CrossSE 1) true im im = Some (Some (1, res)) /\
  (forall x y z v, pixel_is res x y z v -> v = 255) /\ can_descend (CrossSE 1) im 0 0 0 3.
Proof.
  exists terrain, (Img (Dims 5 3 1) (repeat 255 15)). split.
  { destruct (terrain_fast (CrossSE 1)) as (A1 & A2 & A3 & _ & _ & A6); try reflexivity; try discriminate; try in_points. split; [exact A1|]. split; [exact A2|]. split; [exact A3|]. split; [apply terrain_good|]. split; [reflexivity|]. exact A6. }
  split; [vm_compute; reflexivity|]. split; [intros x y z v (_ & R); apply rd_In in R; cbn [pixs] in R; apply repeat_spec in R; exact R|].
  assert (Px : forall x y v, 0 <= x < 5 -> 0 <= y < 3 -> rd (pixs terrain) (x + 5 * y) = Some v -> pixel_is terrain x y 0 v).
  { intros x y v Hx Hy R. split; [unfold inside; cbn; lia|]. unfold voxel_offset. cbn [terrain sz pixs dw dh]. replace (x + 5 * (y + 3 * 0)) with (x + 5 * y) by lia. exact R. }
  apply joined_step with 0 1 0 3; [|exists (0, -1, 0); vm_compute; tauto|apply Px; [lia|lia|reflexivity]|lia].
  apply joined_step with 1 1 0 3; [|exists (-1, 0, 0); vm_compute; tauto|apply Px; [lia|lia|reflexivity]|lia].
  apply joined_seed with 2; [exists 2; split; [apply Px; [lia|lia|reflexivity]|lia]|apply Px; [lia|lia|reflexivity]|lia].
Qed.
Print Assumptions C94_inplace_refuted.

(** C94.  With 26 neighbours and the 8 bits of UINT8, a pixel that has a lower neighbour is marked. *)
Theorem C94_bits_refuted : exists im res, good_img im /\ typed_img UINT8 im /\ symmetric_se (CubeSE 1) /\
  fastMinima 9 UINT8 (fun _ => 77) one_thread one_thread (CubeSE 1) false im im = Some (Some (1, res)) /\
  pixel_is res 0 0 0 255 /\ pixel_is im 0 0 0 5 /\ can_descend (CubeSE 1) im 0 0 0 5.
Proof.
  eexists (Img (Dims 2 2 2) [5;6;6;6;6;6;6;4]), _. split; [apply good_ex; [split; [repeat split; cbn; lia|reflexivity]|cbn; lia|cbn; lia|cbn; lia]|]. split; [typed_px|]. split; [apply element_check_ok; vm_compute; reflexivity|].
  split; [vm_compute; reflexivity|]. split; [split; [unfold inside; cbn; lia|reflexivity]|]. split; [split; [unfold inside; cbn; lia|reflexivity]|].
  apply joined_step with 1 1 1 5; [|exists (-1, -1, -1); vm_compute; tauto|split; [unfold inside; cbn; lia|reflexivity]|lia].
  apply joined_seed with 4; [exists 4; split; [split; [unfold inside; cbn; lia|reflexivity]|lia]|split; [unfold inside; cbn; lia|reflexivity]|lia].
Qed.
Print Assumptions C94_bits_refuted.
