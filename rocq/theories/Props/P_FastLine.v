(** C84, C85 and C86: operators along lines. *)
From Verif Require Export Props.P_Morph Proofs.FastLineProofs4 Proofs.FastLineProofs5 Proofs.FastLineProofs7 Spec.FastLineSpec.
From Verif Require Import Proofs.PreludeFacts Proofs.ImageFacts Proofs.LoopFacts Proofs.MorphProofs Proofs.GeodesicUses Proofs.HitOrMissProofs Model.FastLine.

(** ** C84.  lineDilate is the maximum over the pixels of the image at most [r] steps away on the same digital line, lineErode the
    minimum, for the directions whose lines are all walked: horizontal, vertical, the diagonal that goes up, and those between the
    axes and the diagonal that goes down. *)
Theorem C84_dilate_partial : forall fuel mem alias im dx dy r out, line_call fuel alias im dx dy r out ->
  exists D, lineDilate fuel mem alias im dx dy r out = Some (Some (1, D)) /\ dilated_along dx dy r im D.
Proof. exact lineDilate_ok. Qed.
Print Assumptions C84_dilate_partial.

Theorem C84_erode_partial : forall fuel mem t im dx dy r out, line_call fuel false im dx dy r out -> typed_img t im ->
  exists E, lineErode fuel mem t im dx dy r out = Some (Some (1, E)) /\ eroded_along dx dy r im E.
Proof. exact lineErode_ok. Qed.
Print Assumptions C84_erode_partial.

(** lineOpen is an opening: below the image, increasing, idempotent.  lineClose is a closing. *)
Theorem C84_open_partial : forall fuel mem t im dx dy r out, line_call fuel false im dx dy r out -> typed_img t im ->
  exists O, lineOpen fuel mem t im dx dy r out = Some (Some (1, O)) /\ sz O = sz im /\ wf_img O /\ le_img O im /\
    (forall mem' out', wf_img out' -> sz out' = sz im -> lineOpen fuel mem' t O dx dy r out' = Some (Some (1, O))) /\
    forall mem' im' out' O', wf_img im' -> sz im' = sz im -> typed_img t im' -> wf_img out' -> sz out' = sz im -> le_img im im' ->
      lineOpen fuel mem' t im' dx dy r out' = Some (Some (1, O')) -> le_img O O'.
Proof.
  intros fuel mem t im dx dy r out HC HT. pose proof HC as ((W & _ & _ & D1) & _). destruct (lineOpen_ok fuel mem t im dx dy r out HC HT) as (E & O & EO & HE & HO). pose proof HE as (SE & WE & _). pose proof HO as (SO & WO & _).
  assert (typed_img t O) as TO by (eapply dilated_typed; [exact WE|eapply eroded_along_typed; [exact W|exact HT|exact HE]|exact HO]).
  exists O. split; [exact EO|]. split; [congruence|]. split; [exact WO|]. split; [eapply opened_below; eassumption|]. split.
  - intros mem' out' Wo So. destruct (lineOpen_ok fuel mem' t O dx dy r out' ltac:(eapply call_again; try eassumption; congruence) TO) as (E' & O' & EO' & HE' & HO'). rewrite EO'. rewrite (opened_again dx dy r im E O E' O' D1 W HE HO HE' HO'). reflexivity.
  - intros mem' im' out' O' W' S' T' Wo So HL EO'. destruct (lineOpen_ok fuel mem' t im' dx dy r out' ltac:(eapply call_again; eassumption) T') as (E1 & O1 & EO1 & HE1 & HO1). rewrite EO' in EO1. injection EO1 as <-. pose proof HE1 as (SE1 & WE1 & _).
    eapply dilated_mono; [|exact WE|exact WE1| |exact HO|exact HO1]; [congruence|]. eapply eroded_mono; [|exact W|exact W'|exact HL|exact HE|exact HE1]. congruence.
Qed.
Print Assumptions C84_open_partial.

Theorem C84_close_partial : forall fuel mem t im dx dy r out, line_call fuel false im dx dy r out -> typed_img t im ->
  exists C, lineClose fuel mem t im dx dy r out = Some (Some (1, C)) /\ sz C = sz im /\ wf_img C /\ le_img im C /\
    (forall mem' out', wf_img out' -> sz out' = sz im -> lineClose fuel mem' t C dx dy r out' = Some (Some (1, C))) /\
    forall mem' im' out' C', wf_img im' -> sz im' = sz im -> typed_img t im' -> wf_img out' -> sz out' = sz im -> le_img im im' ->
      lineClose fuel mem' t im' dx dy r out' = Some (Some (1, C')) -> le_img C C'.
Proof.
  intros fuel mem t im dx dy r out HC HT. pose proof HC as ((W & _ & _ & D1) & _). destruct (lineClose_ok fuel mem t im dx dy r out HC HT) as (E & O & EO & HE & HO). pose proof HE as (SE & WE & _). pose proof HO as (SO & WO & _).
  assert (typed_img t O) as TO by (eapply eroded_along_typed; [exact WE|eapply dilated_typed; [exact W|exact HT|exact HE]|exact HO]).
  exists O. split; [exact EO|]. split; [congruence|]. split; [exact WO|]. split; [eapply closed_above; eassumption|]. split.
  - intros mem' out' Wo So. destruct (lineClose_ok fuel mem' t O dx dy r out' ltac:(eapply call_again; try eassumption; congruence) TO) as (E' & O' & EO' & HE' & HO'). rewrite EO'. rewrite (closed_again dx dy r im E O E' O' D1 W HE HO HE' HO'). reflexivity.
  - intros mem' im' out' O' W' S' T' Wo So HL EO'. destruct (lineClose_ok fuel mem' t im' dx dy r out' ltac:(eapply call_again; eassumption) T') as (E1 & O1 & EO1 & HE1 & HO1). rewrite EO' in EO1. injection EO1 as <-. pose proof HE1 as (SE1 & WE1 & _).
    eapply eroded_mono; [|exact WE|exact WE1| |exact HO|exact HO1]; [congruence|]. eapply dilated_mono; [|exact W|exact W'|exact HL|exact HE|exact HE1]. congruence.
Qed.
Print Assumptions C84_close_partial.

(** Images of several slices, and images of two sizes, are turned down. *)
Theorem C84_guards : forall fuel mem alias im dx dy r out, wf_img im -> wf_img out ->
  (sz im <> sz out -> lineDilate fuel mem alias im dx dy r out = Some (Some (-98, out))) /\
  (sz im = sz out -> 1 < dd (sz im) -> lineDilate fuel mem alias im dx dy r out = Some (Some (-100, out))).
Proof.
  intros fuel mem alias im dx dy r out W W'. split.
  - intros HS. unfold lineDilate. destruct (same_size im out) eqn:E; [|reflexivity]. exfalso. apply HS. unfold same_size in E. unfold width, height, depth in E. rewrite !andb_true_iff, !Z.eqb_eq in E. destruct (sz im), (sz out). cbn in E. f_equal; tauto.
  - intros HS HD. unfold lineDilate. rewrite same_size_true by exact HS. cbn [negb]. unfold depth. rewrite Z.gtb_ltb. replace (1 <? dd (sz im)) with true by (symmetry; apply Z.ltb_lt; exact HD). reflexivity.
Qed.
Print Assumptions C84_guards.

(** Not for all the images: a row as long as the segment makes the loop down to 0 run on, below 0, off the buffers. *)
Theorem C84_length_refuted : exists im, line_image im /\ typed_img UINT8 im /\
  forall fuel mem out, sz out = sz im -> length (pixs out) = 6%nat -> lineDilate fuel mem false im 3 0 1 out = None.
Proof.
  exists (Img (Dims 3 2 1) [1; 2; 3; 4; 5; 6]). split; [repeat split; cbn; lia|]. split; [repeat constructor; cbn; lia|]. intros fuel mem [so po] ES EL. cbn [sz pixs] in *. subst so.
  vm_compute. reflexivity.
Qed.
Print Assumptions C84_length_refuted.

(** Nor for all the directions: on the diagonal that goes down, the first pixel of the last row is never written; on the directions
    between that go up, pixels of the first row are not. *)
Definition ones (w h : Z) : img := Img (Dims w h 1) (repeat 1 (Z.to_nat (w * h))).
Theorem C84_diagonal_refuted : exists fuel mem im dx dy r out D, line_image im /\ sz out = sz im /\ dx = dy /\ 0 < dx /\ fuel_ok fuel im dx dy /\
  lineDilate fuel mem false im dx dy r out = Some (Some (1, D)) /\ pixel_is D 0 (dh (sz im) - 1) 0 9 /\ (forall x y z v, pixel_is im x y z v -> v = 1).
Proof.
  exists 40%nat, (fun _ => 0), (ones 3 3), 3, 3, 1, (Img (Dims 3 3 1) (repeat 9 9)), (Img (Dims 3 3 1) [1; 1; 1; 1; 1; 1; 9; 1; 1]).
  split; [repeat split; cbn; lia|]. split; [reflexivity|]. split; [reflexivity|]. split; [lia|]. split; [unfold fuel_ok; cbn; lia|]. split; [vm_compute; reflexivity|]. split; [repeat split; cbn; lia|].
  intros x y z v (_ & R). apply rd_In in R. apply repeat_spec in R. exact R.
Qed.
Print Assumptions C84_diagonal_refuted.

Theorem C84_rising_refuted : exists fuel mem im dx dy r out D, line_image im /\ sz out = sz im /\ dx * dy < 0 /\ dx <> - dy /\ fuel_ok fuel im dx dy /\
  lineDilate fuel mem false im dx dy r out = Some (Some (1, D)) /\ pixel_is D 2 0 0 9 /\ (forall x y z v, pixel_is im x y z v -> v = 1).
Proof.
  exists 40%nat, (fun _ => 0), (ones 3 3), 2, (-1), 1, (Img (Dims 3 3 1) (repeat 9 9)), (Img (Dims 3 3 1) [1; 1; 9; 1; 1; 1; 1; 1; 1]).
  split; [repeat split; cbn; lia|]. split; [reflexivity|]. split; [lia|]. split; [lia|]. split; [unfold fuel_ok; cbn; lia|]. split; [vm_compute; reflexivity|]. split; [repeat split; cbn; lia|].
  intros x y z v (_ & R). apply rd_In in R. apply repeat_spec in R. exact R.
Qed.
Print Assumptions C84_rising_refuted.

(** Twelve pixels, three directions. *)
Definition twelve : img := Img (Dims 4 3 1) [3; 1; 4; 1; 5; 9; 2; 6; 5; 3; 5; 8].
Definition nines (w h : Z) : img := Img (Dims w h 1) (repeat 9 (Z.to_nat (w * h))).
Example C84_case : typed_img UINT8 twelve /\ line_call 30 false twelve 4 0 1 (nines 4 3) /\ line_call 30 false twelve 3 (-3) 1 (nines 4 3) /\ line_call 30 true twelve 4 1 1 twelve /\
  lineDilate 30 (fun _ => 0) false twelve 4 0 1 (nines 4 3) = Some (Some (1, Img (Dims 4 3 1) [3; 4; 4; 4; 9; 9; 9; 6; 5; 5; 8; 8])) /\
  lineDilate 30 (fun _ => 0) false twelve 3 (-3) 1 (nines 4 3) = Some (Some (1, Img (Dims 4 3 1) [3; 5; 9; 2; 5; 9; 3; 6; 9; 3; 6; 8])) /\
  lineDilate 30 (fun _ => 0) true twelve 4 1 1 twelve = Some (Some (1, Img (Dims 4 3 1) [9; 4; 4; 4; 5; 9; 9; 6; 5; 5; 8; 8])) /\
  lineOpen 30 (fun _ => 0) UINT8 twelve 4 0 1 (nines 4 3) = Some (Some (1, Img (Dims 4 3 1) [1; 1; 1; 1; 5; 5; 2; 2; 3; 3; 5; 5])).
Proof.
  split; [repeat constructor; cbn; lia|]. assert (line_image twelve) as HI by (repeat split; cbn; lia).
  assert (forall al dx dy out, wf_img out -> sz out = sz twelve -> (al = true -> out = twelve) -> good_dir dx dy -> Z.abs dx + Z.abs dy < 20 -> dx <> 0 -> line_call 30 al twelve dx dy 1 out) as HC.
  { intros al dx dy out W S A G F Hx. split; [exact HI|]. split; [exact W|]. split; [exact S|]. split; [exact A|]. split; [lia|]. split; [exact G|]. split; [intros _; split; cbn; lia|]. split; [lia|]. unfold fuel_ok. change (dw (sz twelve)) with 4. change (dh (sz twelve)) with 3. lia. }
  split; [apply HC; [repeat split; cbn; lia|reflexivity|discriminate|left; lia|lia|lia]|]. split; [apply HC; [repeat split; cbn; lia|reflexivity|discriminate|right; right; left; lia|lia|lia]|]. split; [apply HC; [apply HI|reflexivity|reflexivity|right; right; right; lia|lia|lia]|].
  repeat split; vm_compute; reflexivity.
Qed.

(** ** C85.  squareDilate, squareErode, squareOpen and squareClose, which work along rows then columns, are the dilation, erosion,
    opening and closing by the square of that size, for images of at least two rows whose sides are not the side of the square. *)
Lemma boxes_max t r im D D' : wf_img im -> dd (sz im) = 1 -> typed_img t im -> square_dilated r im D -> sz D' = sz im -> wf_img D' ->
  (forall x y z v, pixel_is D' x y z v -> greatest (box_values (r * 1) (r * 1) (r * 0) (tmin t) im x y z) v) -> D' = D.
Proof.
  intros W H1 T (S & WD & H) S' W' H'. apply img_ext; [assumption..|congruence|]. intros x y z v Hv. destruct (pixel_exists D x y z WD) as (u & Hu); [rewrite S, <- S'; apply Hv|]. assert (u = v) as <-; [|exact Hu].
  assert (z = 0) as -> by (destruct Hu as (I & _); rewrite S in I; unfold inside in I; lia). destruct (H x y 0 u Hu) as (A & B). destruct (H' x y 0 v Hv) as (A' & B'). apply Z.le_antisymm.
  - apply B'. destruct A as (x' & y' & X & Y & P). exists x', y', 0. split; [lia|]. split; [lia|]. split; [lia|]. left. exact P.
  - destruct A' as (x' & y' & z' & X & Y & Z0 & [P|(_ & ->)]).
    + apply B. exists x', y'. split; [lia|]. split; [lia|]. replace 0 with z' by lia. exact P.
    + destruct A as (x2 & y2 & _ & _ & P). pose proof (typed_is t im x2 y2 0 u T P) as I. unfold inty in I. lia.
Qed.
Lemma boxes_min t r im D D' : wf_img im -> dd (sz im) = 1 -> typed_img t im -> square_eroded r im D -> sz D' = sz im -> wf_img D' ->
  (forall x y z v, pixel_is D' x y z v -> least (box_values (r * 1) (r * 1) (r * 0) (tmax t) im x y z) v) -> D' = D.
Proof.
  intros W H1 T (S & WD & H) S' W' H'. apply img_ext; [assumption..|congruence|]. intros x y z v Hv. destruct (pixel_exists D x y z WD) as (u & Hu); [rewrite S, <- S'; apply Hv|]. assert (u = v) as <-; [|exact Hu].
  assert (z = 0) as -> by (destruct Hu as (I & _); rewrite S in I; unfold inside in I; lia). destruct (H x y 0 u Hu) as (A & B). destruct (H' x y 0 v Hv) as (A' & B'). apply Z.le_antisymm.
  - destruct A' as (x' & y' & z' & X & Y & Z0 & [P|(_ & ->)]).
    + apply B. exists x', y'. split; [lia|]. split; [lia|]. replace 0 with z' by lia. exact P.
    + destruct A as (x2 & y2 & _ & _ & P). pose proof (typed_is t im x2 y2 0 u T P) as I. unfold inty in I. lia.
  - apply B'. destruct A as (x' & y' & X & Y & P). exists x', y', 0. split; [lia|]. split; [lia|]. split; [lia|]. left. exact P.
Qed.

Theorem C85_dilate_partial : forall fuel mem t im r out junk cs alias out', square_call fuel im r out -> typed_img t im -> 2 <= dh (sz im) -> call_ok cs alias im out' ->
  exists D, squareDilate fuel mem im r out = Some (Some (1, D)) /\ dilate junk cs (tmin t) (SquSE r) alias im out' = Some (1, D).
Proof.
  intros fuel mem t im r out junk cs alias out' HC HT HH HO. pose proof HC as ((W & _ & _ & H1) & _ & _ & Hr & _). destruct (squareDilate_ok fuel mem im r out HC) as (D & E & HD). exists D. split; [exact E|].
  destruct (C25_dilate_box junk cs (tmin t) (SquSE r) alias im out' 1 1 0 HO) as (D' & E' & S' & W' & H'); [split; [reflexivity|tauto]|cbn; lia|exact HH|reflexivity|]. rewrite E'. rewrite (boxes_max t r im D D'); auto.
Qed.
Print Assumptions C85_dilate_partial.
Theorem C85_erode_partial : forall fuel mem t im r out junk cs alias out', square_call fuel im r out -> typed_img t im -> 2 <= dh (sz im) -> call_ok cs alias im out' ->
  exists D, squareErode fuel mem t im r out = Some (Some (1, D)) /\ erode junk cs (tmax t) (SquSE r) alias im out' = Some (1, D).
Proof.
  intros fuel mem t im r out junk cs alias out' HC HT HH HO. pose proof HC as ((W & _ & _ & H1) & _ & _ & Hr & _). destruct (squareErode_ok fuel mem t im r out HC HT) as (D & E & HD). exists D. split; [exact E|].
  destruct (C25_erode_box junk cs (tmax t) (SquSE r) alias im out' 1 1 0 HO) as (D' & E' & S' & W' & H'); [split; [reflexivity|tauto]|cbn; lia|exact HH|reflexivity|]. rewrite E'. rewrite (boxes_min t r im D D'); auto.
Qed.
Print Assumptions C85_erode_partial.

Theorem C85_open_partial : forall fuel mem t im r out junk c1 c2 alias out', square_call fuel im r out -> typed_img t im -> 2 <= dh (sz im) -> call_ok c1 alias im out' ->
  (forall k, legal_conf (dh (sz im)) (c2 k)) ->
  exists O, squareOpen fuel mem t im r out = Some (Some (1, O)) /\ open_im t junk c1 c2 (SquSE r) alias im out' = Some (1, O).
Proof.
  intros fuel mem t im r out junk c1 c2 alias out' HC HT HH HO L2. pose proof HC as ((W & _ & _ & H1) & _ & _ & Hr & _). destruct (squareOpen_ok fuel mem t im r out HC HT) as (E & O & EO & HE & HD). exists O. split; [exact EO|].
  unfold open_im. pose proof HO as ((G1 & G2 & G3) & Wo & So & _ & _). rewrite same_size_true by congruence. cbn [negb]. change (isInplaceSafe (SquSE r)) with true. cbv iota.
  destruct (C25_erode_box junk c1 (tmax t) (SquSE r) alias im out' 1 1 0 HO) as (E' & EE & S' & W' & H'); [split; [reflexivity|tauto]|cbn; lia|exact HH|reflexivity|]. rewrite EE. cbn [option_bind snd].
  assert (E' = E) as -> by exact (boxes_min t r im E E' W H1 HT HE S' W' H'). destruct (C25_dilate_box junk c2 (tmin t) (SquSE r) true E E 1 1 0) as (D & ED & SD & WD & HD'); [|split; [reflexivity|tauto]|cbn; lia|unfold fits; cbn [SquSE se_type]; rewrite S'; exact HH|reflexivity|].
  - split; [split; [exact W'|split; [unfold nonempty in *; rewrite S'; exact G2|rewrite S'; exact G3]]|]. split; [exact W'|]. split; [reflexivity|]. split; [reflexivity|]. rewrite S'. exact L2.
  - rewrite ED. rewrite (boxes_max t r E O D); auto; [rewrite S'; exact H1|]. eapply square_eroded_typed; eassumption.
Qed.
Print Assumptions C85_open_partial.
Theorem C85_close_partial : forall fuel mem t im r out junk c1 c2 alias out', square_call fuel im r out -> typed_img t im -> 2 <= dh (sz im) -> call_ok c1 alias im out' ->
  (forall k, legal_conf (dh (sz im)) (c2 k)) ->
  exists C, squareClose fuel mem t im r out = Some (Some (1, C)) /\ close_im t junk c1 c2 (SquSE r) alias im out' = Some (1, C).
Proof.
  intros fuel mem t im r out junk c1 c2 alias out' HC HT HH HO L2. pose proof HC as ((W & _ & _ & H1) & _ & _ & Hr & _). destruct (squareClose_ok fuel mem t im r out HC HT) as (E & O & EO & HE & HD). exists O. split; [exact EO|].
  unfold close_im. pose proof HO as ((G1 & G2 & G3) & Wo & So & _ & _). rewrite same_size_true by congruence. cbn [negb]. change (isInplaceSafe (SquSE r)) with true. cbv iota.
  destruct (C25_dilate_box junk c1 (tmin t) (SquSE r) alias im out' 1 1 0 HO) as (E' & EE & S' & W' & H'); [split; [reflexivity|tauto]|cbn; lia|exact HH|reflexivity|]. rewrite EE. cbn [option_bind snd].
  assert (E' = E) as -> by exact (boxes_max t r im E E' W H1 HT HE S' W' H'). destruct (C25_erode_box junk c2 (tmax t) (SquSE r) true E E 1 1 0) as (D & ED & SD & WD & HD'); [|split; [reflexivity|tauto]|cbn; lia|unfold fits; cbn [transpose SquSE se_type]; rewrite S'; exact HH|reflexivity|].
  - split; [split; [exact W'|split; [unfold nonempty in *; rewrite S'; exact G2|rewrite S'; exact G3]]|]. split; [exact W'|]. split; [reflexivity|]. split; [reflexivity|]. rewrite S'. exact L2.
  - rewrite ED. rewrite (boxes_min t r E O D); auto; [rewrite S'; exact H1|]. eapply square_dilated_typed; eassumption.
Qed.
Print Assumptions C85_close_partial.

(** On a square image of the side of the element, accesses out of bounds. *)
Theorem C85_side_refuted : exists im, line_image im /\ typed_img UINT8 im /\ forall fuel mem out, sz out = sz im -> squareDilate fuel mem im 1 out = None.
Proof.
  exists (ones 3 3). split; [repeat split; cbn; lia|]. split; [repeat constructor; cbn; lia|]. intros fuel mem [so po] ES. cbn [sz] in ES. subst so. vm_compute. reflexivity.
Qed.
Print Assumptions C85_side_refuted.

Example C85_case : square_call 40 twelve 2 (nines 4 3) /\ typed_img UINT8 twelve /\ call_ok one_thread false twelve (nines 4 3) /\
  squareOpen 40 (fun _ => 0) UINT8 (Img (Dims 4 4 1) [7; 7; 7; 1; 7; 7; 7; 1; 7; 7; 7; 2; 1; 1; 1; 6]) 2 (nines 4 4) = Some (Some (1, Img (Dims 4 4 1) [7; 7; 7; 1; 7; 7; 7; 1; 7; 7; 7; 1; 1; 1; 1; 1])) /\
  squareClose 40 (fun _ => 0) UINT8 twelve 2 (nines 4 3) = Some (Some (1, Img (Dims 4 3 1) [9; 9; 9; 9; 9; 9; 9; 9; 9; 9; 9; 9])) /\
  squareDilate 40 (fun _ => 0) twelve 2 (nines 4 3) = Some (Some (1, Img (Dims 4 3 1) [9; 9; 9; 9; 9; 9; 9; 9; 9; 9; 9; 9])) /\
  squareErode 40 (fun _ => 0) UINT8 twelve 2 (nines 4 3) = Some (Some (1, Img (Dims 4 3 1) [1; 1; 1; 1; 1; 1; 1; 1; 1; 1; 1; 1])).
Proof.
  split. { split; [repeat split; cbn; lia|]. split; [repeat split; cbn; lia|]. split; [reflexivity|]. split; [lia|]. split; [repeat split; cbn; lia|]. split; [repeat split; cbn; lia|cbn; lia]. }
  split; [repeat constructor; cbn; lia|]. split. { split; [split; [repeat split; cbn; lia|split; [unfold nonempty; cbn; lia|cbn; lia]]|]. split; [repeat split; cbn; lia|]. split; [reflexivity|]. split; [discriminate|]. intros k. apply one_thread_legal. cbn. lia. }
  repeat split; vm_compute; reflexivity.
Qed.

(** ** C86.  imFastLineOpen gives each pixel the highest level at which it is in a run of at least 2 r + 1 pixels of its line, or at
    which its whole line is: horizontal, vertical and one diagonal, values of 8 bits.  imFastLineClose: the lowest level from above. *)
Theorem C86_open_partial : forall fuel mem memn alias t im dx dy r out, opening_call fuel alias t im dx dy r out ->
  exists D, imFastLineOpen fuel mem memn alias im dx dy r out = Some (Some (1, D)) /\ opened_along dx dy (2 * r + 1) im D.
Proof. exact imFastLineOpen_ok. Qed.
Print Assumptions C86_open_partial.
Theorem C86_close_partial : forall fuel mem memn t im dx dy r out, opening_call fuel false t im dx dy r out ->
  exists D, imFastLineClose fuel mem memn t im dx dy r out = Some (Some (1, D)) /\ closed_along dx dy (2 * r + 1) im D.
Proof. exact imFastLineClose_ok. Qed.
Print Assumptions C86_close_partial.

(** It is an opening: below the image, idempotent, increasing; it does not depend on memory, nor on the place of the result. *)
Theorem C86_opening : forall fuel mem memn alias t im dx dy r out, opening_call fuel alias t im dx dy r out ->
  exists D, imFastLineOpen fuel mem memn alias im dx dy r out = Some (Some (1, D)) /\ le_img D im /\
    (forall mem' memn' out', wf_img out' -> sz out' = sz im -> imFastLineOpen fuel mem' memn' false D dx dy r out' = Some (Some (1, D))) /\
    (forall mem' memn' out', wf_img out' -> sz out' = sz im -> imFastLineOpen fuel mem' memn' false im dx dy r out' = Some (Some (1, D))) /\
    forall mem' memn' im' out' D', wf_img im' -> sz im' = sz im -> typed_img t im' -> wf_img out' -> sz out' = sz im -> le_img im im' ->
      imFastLineOpen fuel mem' memn' false im' dx dy r out' = Some (Some (1, D')) -> le_img D D'.
Proof.
  intros fuel mem memn alias t im dx dy r out HC. destruct (imFastLineOpen_ok fuel mem memn alias t im dx dy r out HC) as (D & E & HD). exists D. split; [exact E|]. pose proof HC as ((W & W1 & W2 & W3) & Wo & So & _ & Hr & Hd & T8 & T & Hf). pose proof HD as (SD & WD & _).
  assert (forall im' out', wf_img im' -> sz im' = sz im -> typed_img t im' -> wf_img out' -> sz out' = sz im -> opening_call fuel false t im' dx dy r out') as HA.
  { intros im' out' W' S' T' Wo' So'. unfold opening_call, line_image, fuel_ok in *. rewrite S'. split; [auto|]. split; [exact Wo'|]. split; [exact So'|]. split; [discriminate|]. auto. }
  split; [eapply runs_below; eassumption|]. split; [|split].
  - intros mem' memn' out' Wo' So'. destruct (imFastLineOpen_ok fuel mem' memn' false t D dx dy r out' (HA D out' WD SD (opened_typed _ _ _ _ _ _ W T W3 HD) Wo' So')) as (D' & E' & HD'). rewrite E'. rewrite (runs_again dx dy (2 * r + 1) im D D' W3 W HD HD'). reflexivity.
  - intros mem' memn' out' Wo' So'. destruct (imFastLineOpen_ok fuel mem' memn' false t im dx dy r out' (HA im out' W eq_refl T Wo' So')) as (D' & E' & HD'). rewrite E'. rewrite (runs_fun dx dy (2 * r + 1) im D D' HD HD'). reflexivity.
  - intros mem' memn' im' out' D' W' S' T' Wo' So' HL E'. destruct (imFastLineOpen_ok fuel mem' memn' false t im' dx dy r out' (HA im' out' W' S' T' Wo' So')) as (D1 & E1 & HD1). rewrite E' in E1. injection E1 as <-. eapply runs_mono; [exact S'|exact W'|exact HL|exact HD|exact HD1].
Qed.
Print Assumptions C86_opening.

(** The other directions.  On the diagonal that goes down the program leaves the image; between the axes, [EndProcess] works once
    more on the last line after the last one, and lowers it. *)
Theorem C86_diagonal_refuted : exists im, line_image im /\ typed_img UINT8 im /\ imFastLineOpen 40 (fun _ => 0) (fun _ => Mn 0 false 0) false im 2 2 1 im = None.
Proof. exists (ones 2 2). split; [repeat split; cbn; lia|]. split; [repeat constructor; cbn; lia|]. vm_compute. reflexivity. Qed.
Print Assumptions C86_diagonal_refuted.

Theorem C86_stale_refuted : exists fuel mem memn im dx dy r out D, line_image im /\ typed_img UINT8 im /\ sz out = sz im /\ wf_img out /\ 0 < dx * dy /\ Z.abs dx <> Z.abs dy /\ fuel_ok fuel im dx dy /\
  imFastLineOpen fuel mem memn false im dx dy r out = Some (Some (1, D)) /\ exists x y, pixel_is D x y 0 1 /\ run_through dx dy (2 * r + 1) im x y 5.
Proof.
  exists 40%nat, (fun _ => 0), (fun _ => Mn 0 false 0), (Img (Dims 5 1 1) [9; 1; 5; 5; 5]), 9, 1, 1, (nines 5 1), (Img (Dims 5 1 1) [9; 1; 1; 1; 1]).
  split; [repeat split; cbn; lia|]. split; [repeat constructor; cbn; lia|]. split; [reflexivity|]. split; [repeat split; cbn; lia|]. split; [lia|]. split; [lia|]. split; [unfold fuel_ok; cbn; lia|]. split; [vm_compute; reflexivity|].
  exists 3, 0. split; [repeat split; cbn; lia|]. exists 2, 5. split; [cbn; lia|]. split; [left; lia|]. intros i Hi. assert (i = 2 \/ i = 3 \/ i = 4) as C by lia. exists i, 0, 5.
  destruct C as [-> |[-> | ->]]; (split; [vm_compute; reflexivity|]); (split; [reflexivity|]); (split; [repeat split; cbn; lia|lia]).
Qed.
Print Assumptions C86_stale_refuted.

(** More than 256 levels overflow the stack. *)
Theorem C86_levels_refuted : exists im, line_image im /\ typed_img UINT16 im /\ imFastLineOpen 400 (fun _ => 0) (fun _ => Mn 0 false 0) false im 300 0 1 im = None.
Proof.
  exists (Img (Dims 300 1 1) (zseq 300)). split; [repeat split; cbn; lia|]. split; [|vm_compute; reflexivity]. unfold typed_img. cbn [pixs]. apply Forall_forall. intros v Hv. apply zseq_In in Hv. unfold inty. cbn. lia.
Qed.
Print Assumptions C86_levels_refuted.

(** Only the first slice of a volume is opened. *)
Theorem C86_volume_refuted : exists fuel mem memn im out D, wf_img im /\ typed_img UINT8 im /\ sz out = sz im /\ wf_img out /\
  imFastLineOpen fuel mem memn false im 3 0 1 out = Some (Some (1, D)) /\ pixel_is D 0 0 1 9 /\ (forall x y z v, pixel_is im x y z v -> v = 1).
Proof.
  exists 40%nat, (fun _ => 0), (fun _ => Mn 0 false 0), (Img (Dims 3 1 2) [1; 1; 1; 1; 1; 1]), (Img (Dims 3 1 2) [9; 9; 9; 9; 9; 9]), (Img (Dims 3 1 2) [1; 1; 1; 9; 9; 9]).
  split; [repeat split; cbn; lia|]. split; [repeat constructor; cbn; lia|]. split; [reflexivity|]. split; [repeat split; cbn; lia|]. split; [vm_compute; reflexivity|]. split; [repeat split; cbn; lia|].
  intros x y z v (_ & R). eapply rd_In in R. cbn in R. lia.
Qed.
Print Assumptions C86_volume_refuted.

(** Near the borders it is not lineOpen, for which the segment may stick out of the image. *)
Theorem C86_borders_refuted : exists im out D O, opening_call 40 false UINT8 im 4 0 1 out /\ line_call 40 false im 4 0 1 out /\
  imFastLineOpen 40 (fun _ => 0) (fun _ => Mn 0 false 0) false im 4 0 1 out = Some (Some (1, D)) /\ lineOpen 40 (fun _ => 0) UINT8 im 4 0 1 out = Some (Some (1, O)) /\
  pixel_is D 0 0 0 1 /\ pixel_is O 0 0 0 5.
Proof.
  exists (Img (Dims 4 2 1) [5; 5; 1; 6; 3; 3; 4; 4]), (nines 4 2), (Img (Dims 4 2 1) [1; 1; 1; 1; 3; 3; 3; 3]), (Img (Dims 4 2 1) [5; 5; 1; 1; 3; 3; 4; 4]).
  split. { split; [repeat split; cbn; lia|]. split; [repeat split; cbn; lia|]. split; [reflexivity|]. split; [discriminate|]. split; [lia|]. split; [left; lia|]. split; [left; reflexivity|]. split; [repeat constructor; cbn; lia|]. unfold fuel_ok. cbn. lia. }
  split. { split; [repeat split; cbn; lia|]. split; [repeat split; cbn; lia|]. split; [reflexivity|]. split; [discriminate|]. split; [lia|]. split; [left; lia|]. split; [intros _; split; cbn; lia|]. split; [lia|]. unfold fuel_ok. cbn. lia. }
  split; [vm_compute; reflexivity|]. split; [vm_compute; reflexivity|]. split; repeat split; cbn; lia.
Qed.
Print Assumptions C86_borders_refuted.

Example C86_case : opening_call 30 false UINT8 twelve 4 0 1 (nines 4 3) /\ opening_call 30 true UINT8 twelve 3 (-3) 1 twelve /\
  imFastLineOpen 30 (fun _ => 0) (fun _ => Mn 0 false 0) false twelve 4 0 1 (nines 4 3) = Some (Some (1, Img (Dims 4 3 1) [1; 1; 1; 1; 2; 2; 2; 2; 3; 3; 3; 3])) /\
  imFastLineOpen 30 (fun _ => 0) (fun _ => Mn 0 false 0) true twelve 3 (-3) 1 twelve = Some (Some (1, Img (Dims 4 3 1) [3; 1; 4; 1; 1; 4; 1; 5; 4; 1; 5; 8])).
Proof.
  assert (forall al dx dy out, wf_img out -> sz out = sz twelve -> (al = true -> out = twelve) -> open_dir dx dy -> Z.abs dx + Z.abs dy < 20 -> opening_call 30 al UINT8 twelve dx dy 1 out) as HC.
  { intros al dx dy out W S A G F. split; [repeat split; cbn; lia|]. split; [exact W|]. split; [exact S|]. split; [exact A|]. split; [lia|]. split; [exact G|]. split; [left; reflexivity|]. split; [repeat constructor; cbn; lia|]. unfold fuel_ok. change (dw (sz twelve)) with 4. change (dh (sz twelve)) with 3. lia. }
  split; [apply HC; [repeat split; cbn; lia|reflexivity|discriminate|left; lia|lia]|]. split; [apply HC; [repeat split; cbn; lia|reflexivity|reflexivity|right; right; lia|lia]|].
  split; vm_compute; reflexivity.
Qed.
