(** Values along a line. *)
From Verif Require Export Model.Profile Proofs.DrawProofs5.

Lemma slices_out s z : 0 <= dd s <= z -> rd (restruct_slices s) z = None.
Proof. intros H. apply rd_out. unfold restruct_slices. rewrite map_length, zseq_length. lia. Qed.

Lemma read_all im z ps : wf_img im -> (forall x y, In (x, y) ps -> inside (sz im) x y z) ->
  exists vs, all_some (map (fun p => option_bind (slice_access (sz im) (fst p) (snd p) z) (rd (pixs im))) ps) = Some vs /\
    Forall2 (fun p v => pixel_is im (fst p) (snd p) z v) ps vs.
Proof.
  intros W H. induction ps as [|(x, y) ps IH]; [exists []; split; [reflexivity|constructor]|].
  destruct IH as (vs & E & F); [intros; apply H; right; assumption|]. pose proof (H x y (or_introl eq_refl)) as I.
  destruct (pixel_exists im x y z W I) as (v & P). exists (v :: vs). split; [|constructor; [exact P|exact F]].
  cbn [map fst snd]. rewrite slice_access_wf by (first [exact I|apply W]). cbn [option_bind]. destruct P as (_ & P). rewrite P. cbn [all_some]. rewrite E. reflexivity.
Qed.

(** The points that profile asks for. *)
Lemma profile_points im x0 y0 x1 y1 z : wf_img im -> 0 < width im < 2 ^ 31 -> 0 < height im < 2 ^ 31 -> 0 <= z < depth im ->
  0 <= x0 < 2 ^ 28 -> 0 <= y0 < 2 ^ 28 -> 0 <= x1 < 2 ^ 28 -> 0 <= y1 < 2 ^ 28 -> line_clipped (width im) (height im) x0 y0 x1 y1 ->
  exists ps vs, profile im x0 y0 x1 y1 z = Some vs /\ Forall2 (fun p v => pixel_is im (fst p) (snd p) z v) ps vs /\
    (forall x y, In (x, y) ps <-> segment x0 y0 x1 y1 x y /\ inside (sz im) x y z) /\
    (x0 < width im -> y0 < height im -> x1 < width im -> y1 < height im -> bresenhamPoints x0 y0 x1 y1 0 0 = Some ps).
Proof.
  intros W Hw Hh Hz B1 B2 B3 B4 C. unfold profile. rewrite !to_int_id by lia.
  assert (small_int x0 /\ small_int y0 /\ small_int x1 /\ small_int y1) as (S1 & S2 & S3 & S4) by (unfold small_int; lia).
  destruct (rd_in_range (restruct_slices (sz im)) z) as (sl & Esl).
  { unfold restruct_slices. rewrite map_length, zseq_length. unfold depth in Hz. lia. }
  match goal with |- context [if ?b then _ else _] => destruct b eqn:B end;
  [destruct (bresenham_ok x0 y0 x1 y1 (width im) (height im) S1 S2 S3 S4) as (ps & E & I)
  |destruct (bresenham_ok x0 y0 x1 y1 0 0 S1 S2 S3 S4) as (ps & E & I)]; rewrite E; cbn [option_bind]; rewrite Esl; cbn [option_bind].
  - assert (R : forall x y, In (x, y) ps -> inside (sz im) x y z).
    { intros x y Hi. apply I in Hi as (Hs & Hp). apply segment_range in Hs. unfold passed in Hp. unfold line_clipped in C. unfold inside, width, height, depth in *.
      destruct (Z.eqb_spec x0 x1); [|destruct (Z.eqb_spec y0 y1)]; lia. }
    destruct (read_all im z ps W R) as (vs & Ev & F). exists ps, vs. split; [exact Ev|]. split; [exact F|]. split; [|lia].
    intros x y. split; [intros Hi; split; [apply I; exact Hi|apply R; exact Hi]|]. intros (Hs & Hi). apply I. split; [exact Hs|].
    unfold inside in Hi. unfold passed, width, height in *. destruct (x0 =? x1); [|destruct (y0 =? y1)]; lia.
  - assert (R : forall x y, In (x, y) ps -> inside (sz im) x y z).
    { intros x y Hi. apply I in Hi as (Hs & _). apply segment_range in Hs. unfold inside, width, height, depth in *. lia. }
    destruct (read_all im z ps W R) as (vs & Ev & F). exists ps, vs. split; [exact Ev|]. split; [exact F|]. split; [|intros; reflexivity].
    intros x y. split; [intros Hi; split; [apply I; exact Hi|apply R; exact Hi]|]. intros (Hs & Hi). apply I. split; [exact Hs|].
    unfold passed. destruct (x0 =? x1); [|destruct (y0 =? y1)]; auto.
Qed.

(** The number of points of a line. *)
Lemma bres_list_length p1x p1y p2x p2y : p1x <= p2x -> Z.of_nat (length (bres_list p1x p1y p2x p2y 0 0)) = Z.max (Z.abs (p2x - p1x)) (Z.abs (p2y - p1y)) + 1.
Proof.
  intros H. unfold bres_list. destruct (Z.eqb_spec p1x p2x) as [->|Nx]; [|destruct (Z.eqb_spec p1y p2y) as [->|Ny]].
  - unfold bres_vertical. destruct (p1y >? p2y) eqn:E; cbn [Z.eqb orb]; unfold zrange; rewrite !map_length, zseq_length; lia.
  - unfold bres_horizontal. cbn [Z.eqb orb]. unfold zrange. rewrite !map_length, zseq_length. lia.
  - cbv zeta. unfold bres_line. destruct (_ <=? _) eqn:E; rewrite (filter_ext _ (fun _ => true)) by reflexivity; rewrite filter_true, map_length, zseq_length; lia.
Qed.

Lemma bresenham_length p1x p1y p2x p2y ps : small_int p1x -> small_int p1y -> small_int p2x -> small_int p2y ->
  bresenhamPoints p1x p1y p2x p2y 0 0 = Some ps -> Z.of_nat (length ps) = Z.max (Z.abs (p2x - p1x)) (Z.abs (p2y - p1y)) + 1.
Proof.
  intros S1 S2 S3 S4. rewrite bresenham_list by assumption. intros [= <-]. destruct (Z.gtb_spec p1x p2x).
  - destruct (p1y =? p2y); rewrite ?rev_length, bres_list_length; lia.
  - apply bres_list_length. lia.
Qed.
