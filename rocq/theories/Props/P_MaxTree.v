(** C43, C75 and C76: attribute openings and closings by max-tree. *)
From Verif Require Export Proofs.MaxTreeProofs11 Props.P_Label.

(** ** C43.  areaOpen: every pixel gets the highest level, not above its value, whose connected component around the pixel has at
    least [n] pixels; the least value of the image if there is none.  For 8 and 16 bits without sign, elements that are
    symmetric and through which any pixel is reached from any other. *)
Theorem C43_areaOpen_partial : forall fuel t se im imOut n, tree_ok t se im -> sz imOut = sz im -> (2 * length (pixs im) + 1 <= fuel)%nat ->
  exists out, areaOpen fuel t se im n imOut = Some (Some (1, out)) /\ attr_opened CArea n se im out.
Proof. intros fuel t se im imOut n. apply attributeOpen_spec. Qed.
Print Assumptions C43_areaOpen_partial.

(** There is one such image. *)
Theorem C43_unique : forall k n se im out out', wf_img im -> attr_opened k n se im out -> attr_opened k n se im out' -> out = out'.
Proof. exact opened_unique. Qed.
Print Assumptions C43_unique.

(** It is below the image, it grows with the image, it decreases with the size, and sizes up to 1 give the image back. *)
Theorem C43_antiextensive : forall fuel t se im imOut n out, tree_ok t se im -> sz imOut = sz im -> (2 * length (pixs im) + 1 <= fuel)%nat ->
  areaOpen fuel t se im n imOut = Some (Some (1, out)) -> forall x y z u v, pixel_is out x y z u -> pixel_is im x y z v -> u <= v.
Proof.
  intros fuel t se im imOut n out T S F E. destruct (C43_areaOpen_partial fuel t se im imOut n T S F) as (o & E' & A). rewrite E in E'. injection E' as <-. exact (opened_extensive _ _ _ _ _ A).
Qed.
Print Assumptions C43_antiextensive.

Theorem C43_increasing : forall fuel t se im im' imOut n out out', tree_ok t se im -> tree_ok t se im' -> sz im' = sz im -> sz imOut = sz im ->
  (2 * length (pixs im) + 1 <= fuel)%nat -> (forall x y z u v, pixel_is im x y z u -> pixel_is im' x y z v -> u <= v) ->
  areaOpen fuel t se im n imOut = Some (Some (1, out)) -> areaOpen fuel t se im' n imOut = Some (Some (1, out')) ->
  forall x y z u v, pixel_is out x y z u -> pixel_is out' x y z v -> u <= v.
Proof.
  intros fuel t se im im' imOut n out out' T T' S S' F L E E'. destruct (C43_areaOpen_partial fuel t se im imOut n T S' F) as (o & Eo & A). rewrite E in Eo. injection Eo as <-.
  assert (length (pixs im') = length (pixs im)) as Q. { apply Nat2Z.inj. pose proof T as (_ & (_ & W) & _). pose proof T' as (_ & (_ & W') & _). rewrite W, W', S. reflexivity. }
  destruct (C43_areaOpen_partial fuel t se im' imOut n T') as (o & Eo & A'); [congruence|rewrite Q; exact F|]. rewrite E' in Eo. injection Eo as <-.
  apply (opened_increasing CArea n se im im'); try assumption; [apply T|apply T'].
Qed.
Print Assumptions C43_increasing.

Theorem C43_idempotent : forall fuel t se im imOut n out, tree_ok t se im -> sz imOut = sz im -> (2 * length (pixs im) + 1 <= fuel)%nat ->
  areaOpen fuel t se im n imOut = Some (Some (1, out)) -> areaOpen fuel t se out n imOut = Some (Some (1, out)).
Proof.
  intros fuel t se im imOut n out T S F E. destruct (C43_areaOpen_partial fuel t se im imOut n T S F) as (o & Eo & A). rewrite E in Eo. injection Eo as <-.
  pose proof T as (Ht & W & Ty & Hs & Hpt & HP & Hsy & Hc & HN). pose proof A as (So & Wo & _).
  assert (tree_ok t se out) as T'.
  { unfold tree_ok. rewrite So. split; [exact Ht|]. split; [exact Wo|]. split; [exact (opened_typed _ _ _ _ _ _ Ty W A)|]. repeat (split; [assumption|]). split; [|exact HN].
    intros x y z x' y' z' I I'. rewrite So in I, I'. generalize (Hc x y z x' y' z' I I'). apply joined_map; [congruence|]. intros i j k u P _.
    destruct (pixel_exists out i j k Wo) as (v & Pv); [rewrite So; apply P|]. exists v. split; [exact Pv|exact Logic.I]. }
  assert (length (pixs out) = length (pixs im)) as Q. { apply Nat2Z.inj. destruct W as (_ & W). destruct Wo as (_ & Wo). rewrite W, Wo, So. reflexivity. }
  destruct (C43_areaOpen_partial fuel t se out imOut n T') as (o2 & E2 & A2); [congruence|rewrite Q; exact F|].
  rewrite E2. rewrite (opened_idempotent CArea n se im out o2 W HP Hsy A A2). reflexivity.
Qed.
Print Assumptions C43_idempotent.

Theorem C43_sizes : forall fuel t se im imOut n n' out out', tree_ok t se im -> sz imOut = sz im -> (2 * length (pixs im) + 1 <= fuel)%nat -> n <= n' ->
  areaOpen fuel t se im n imOut = Some (Some (1, out)) -> areaOpen fuel t se im n' imOut = Some (Some (1, out')) ->
  forall x y z u v, pixel_is out' x y z u -> pixel_is out x y z v -> u <= v.
Proof.
  intros fuel t se im imOut n n' out out' T S F Hn E E'. destruct (C43_areaOpen_partial fuel t se im imOut n T S F) as (o & Eo & A). rewrite E in Eo. injection Eo as <-.
  destruct (C43_areaOpen_partial fuel t se im imOut n' T S F) as (o & Eo & A'). rewrite E' in Eo. injection Eo as <-. apply (opened_sizes CArea n n' se im); try assumption. apply T.
Qed.
Print Assumptions C43_sizes.

Theorem C43_size_one : forall fuel t se im imOut n, tree_ok t se im -> sz imOut = sz im -> (2 * length (pixs im) + 1 <= fuel)%nat -> n <= 1 ->
  areaOpen fuel t se im n imOut = Some (Some (1, im)).
Proof.
  intros fuel t se im imOut n T S F Hn. destruct (C43_areaOpen_partial fuel t se im imOut n T S F) as (o & Eo & A). rewrite Eo. rewrite (opened_one CArea n se im o (proj1 (proj2 T)) Hn A). reflexivity.
Qed.
Print Assumptions C43_size_one.

(** The usual elements go everywhere: on one slice, and on any image for those with neighbours above and below. *)
Ltac unit_even p := exists p; split; [vm_compute; tauto|]; unfold src_x, px_, py_, pz_; cbn [fst snd se_odd andb CrossSE SquSE CubeSE Cross3DSE]; repeat split; lia.
Theorem C43_connecting : forall im, wf_img im ->
  (dd (sz im) = 1 -> connecting (CrossSE 1) im /\ connecting (SquSE 1) im /\ connecting (HexSE 1) im) /\
  connecting (CubeSE 1) im /\ connecting (Cross3DSE 1) im.
Proof.
  intros im W. split; [intros D; split; [|split]|split]; apply steps_connect; try exact W; intros x y z.
  - split; [unit_even (-1, 0, 0)|]. split; [unit_even (1, 0, 0)|]. split; [unit_even (0, -1, 0)|]. split; [unit_even (0, 1, 0)|]. left. exact D.
  - split; [unit_even (-1, 0, 0)|]. split; [unit_even (1, 0, 0)|]. split; [unit_even (0, -1, 0)|]. split; [unit_even (0, 1, 0)|]. left. exact D.
  - assert (V : forall q, q = 1 \/ q = -1 -> sees (HexSE 1) x y z x (y - q) z).
    { intros q Hq. destruct (true && Z.even y && Z.even z && Z.odd (y - q)) eqn:Q.
      - exists (-1, q, 0). split; [destruct Hq as [-> | ->]; vm_compute; tauto|]. unfold src_x, px_, py_, pz_. cbn [fst snd se_odd HexSE]. rewrite Q. repeat split; lia.
      - exists (0, q, 0). split; [destruct Hq as [-> | ->]; vm_compute; tauto|]. unfold src_x, px_, py_, pz_. cbn [fst snd se_odd HexSE]. rewrite Q. repeat split; lia. }
    assert (P : true && Z.even y && Z.even z && Z.odd (y - 0) = false). { rewrite Z.sub_0_r, <- Z.negb_even. destruct (Z.even y), (Z.even z); reflexivity. }
    split; [exists (-1, 0, 0); split; [vm_compute; tauto|]; unfold src_x, px_, py_, pz_; cbn [fst snd se_odd HexSE]; rewrite P; repeat split; lia|].
    split; [exists (1, 0, 0); split; [vm_compute; tauto|]; unfold src_x, px_, py_, pz_; cbn [fst snd se_odd HexSE]; rewrite P; repeat split; lia|].
    split; [replace (y + 1) with (y - -1) by lia; apply V; lia|]. split; [apply V; lia|]. left. exact D.
  - split; [unit_even (-1, 0, 0)|]. split; [unit_even (1, 0, 0)|]. split; [unit_even (0, -1, 0)|]. split; [unit_even (0, 1, 0)|]. right. split; [unit_even (0, 0, -1)|unit_even (0, 0, 1)].
  - split; [unit_even (-1, 0, 0)|]. split; [unit_even (1, 0, 0)|]. split; [unit_even (0, -1, 0)|]. split; [unit_even (0, 1, 0)|]. right. split; [unit_even (0, 0, -1)|unit_even (0, 0, 1)].
Qed.
Print Assumptions C43_connecting.

(** The pixels that cannot be reached from the first minimum get 0, below all the values of the image. *)
Theorem C43_connecting_refuted : exists se im out, wf_img im /\ typed_img UINT8 im /\ symmetric_se se /\ int_points se /\
  areaOpen 9 UINT8 se im 1 im = Some (Some (1, out)) /\ pixel_is out 0 1 0 0 /\ least_value im 5 /\ ~ attr_opened CArea 1 se im out.
Proof.
  exists (HorizSE 1), (Img (Dims 2 2 1) [5; 7; 6; 6]), (Img (Dims 2 2 1) [5; 7; 0; 0]).
  assert (least_value (Img (Dims 2 2 1) [5; 7; 6; 6]) 5) as L.
  { split; [exists 0, 0, 0; split; [unfold inside; cbn; lia|reflexivity]|]. intros x y z v (I & E). apply rd_In in E. cbn in E. lia. }
  destruct (element_check_ok (HorizSE 1) eq_refl) as (A & B).
  split; [split; [repeat split; cbn; lia|reflexivity]|]. split; [repeat constructor; cbn; lia|]. split; [exact A|]. split; [exact B|]. split; [vm_compute; reflexivity|].
  split; [split; [unfold inside; cbn; lia|reflexivity]|]. split; [exact L|]. intros (_ & _ & m & M & H).
  assert (m = 5) as ->. { destruct M as ((x & y & z & P) & M). destruct L as ((x' & y' & z' & P') & L). specialize (M _ _ _ _ P'). specialize (L _ _ _ _ P). lia. }
  destruct (H 0 1 0 6 0) as (Q & _); [split; [unfold inside; cbn; lia|reflexivity]|split; [unfold inside; cbn; lia|reflexivity]|lia].
Qed.
Print Assumptions C43_connecting_refuted.

(** On signed types, a negative value is used as an index of the tables. *)
Theorem C43_signed_refuted : exists im, wf_img im /\ typed_img INT8 im /\ connecting (CrossSE 1) im /\ areaOpen 9 INT8 (CrossSE 1) im 1 im = None.
Proof.
  exists (Img (Dims 2 2 1) [-5; 7; 6; 6]). assert (wf_img (Img (Dims 2 2 1) [-5; 7; 6; 6])) as W by (split; [repeat split; cbn; lia|reflexivity]).
  split; [exact W|]. split; [repeat constructor; cbn; lia|]. split; [|vm_compute; reflexivity]. apply (C43_connecting _ W). reflexivity.
Qed.
Print Assumptions C43_signed_refuted.

(** ** C75.  heightOpen and widthOpen: the same with the number of lines (columns) that the component spans. *)
Theorem C75_heightOpen_partial : forall fuel t se im imOut n, tree_ok t se im -> sz imOut = sz im -> (2 * length (pixs im) + 1 <= fuel)%nat ->
  exists out, heightOpen fuel t se im n imOut = Some (Some (1, out)) /\ attr_opened CHeight n se im out.
Proof. intros fuel t se im imOut n. apply attributeOpen_spec. Qed.
Print Assumptions C75_heightOpen_partial.
Theorem C75_widthOpen_partial : forall fuel t se im imOut n, tree_ok t se im -> sz imOut = sz im -> (2 * length (pixs im) + 1 <= fuel)%nat ->
  exists out, widthOpen fuel t se im n imOut = Some (Some (1, out)) /\ attr_opened CWidth n se im out.
Proof. intros fuel t se im imOut n. apply attributeOpen_spec. Qed.
Print Assumptions C75_widthOpen_partial.

(** These are openings. *)
Theorem C75_opening : forall k n se im im' out out' out2, wf_img im -> wf_img im' -> sz im' = sz im -> planar se (sz im) -> symmetric_se se ->
  attr_opened k n se im out -> attr_opened k n se im' out' -> attr_opened k n se out out2 ->
  (forall x y z u v, pixel_is out x y z u -> pixel_is im x y z v -> u <= v) /\
  ((forall x y z u v, pixel_is im x y z u -> pixel_is im' x y z v -> u <= v) -> forall x y z u v, pixel_is out x y z u -> pixel_is out' x y z v -> u <= v) /\
  out2 = out.
Proof.
  intros k n se im im' out out' out2 W W' S HP Hsy A A' A2. split; [exact (opened_extensive _ _ _ _ _ A)|]. split; [|exact (opened_idempotent k n se im out out2 W HP Hsy A A2)].
  intros L. exact (opened_increasing k n se im im' out out' W W' S L A A').
Qed.
Print Assumptions C75_opening.

(** ** C76.  areaClose, heightClose and widthClose: every pixel gets the lowest level, not below its value, whose component
    around the pixel (among the pixels not above the level) has the attribute; the greatest value if there is none. *)
Theorem C76_close_partial : forall fuel t k se im imOut n, tree_ok t se im -> sz imOut = sz im -> (2 * length (pixs im) + 1 <= fuel)%nat ->
  exists out, attributeClose fuel t k se im n imOut = Some (Some (1, out)) /\ attr_closed k n se im out.
Proof. intros fuel t k se im imOut n. apply attributeClose_spec. Qed.
Print Assumptions C76_close_partial.

Theorem C76_unique : forall k n se im out out', wf_img im -> attr_closed k n se im out -> attr_closed k n se im out' -> out = out'.
Proof. exact closed_unique. Qed.
Print Assumptions C76_unique.

Theorem C76_closing : forall k n se im im' out out' out2, wf_img im -> wf_img im' -> sz im' = sz im -> planar se (sz im) -> symmetric_se se ->
  attr_closed k n se im out -> attr_closed k n se im' out' -> attr_closed k n se out out2 ->
  (forall x y z u v, pixel_is im x y z u -> pixel_is out x y z v -> u <= v) /\
  ((forall x y z u v, pixel_is im x y z u -> pixel_is im' x y z v -> u <= v) -> forall x y z u v, pixel_is out x y z u -> pixel_is out' x y z v -> u <= v) /\
  out2 = out.
Proof.
  intros k n se im im' out out' out2 W W' S HP Hsy A A' A2. split; [exact (closed_extensive _ _ _ _ _ A)|]. split; [|exact (closed_idempotent k n se im out out2 W HP Hsy A A2)].
  intros L. exact (closed_increasing k n se im im' out out' W W' S L A A').
Qed.
Print Assumptions C76_closing.

(** *** Cases *)
Definition hills : img := Img (Dims 4 3 1) [1;5;1;2; 5;5;1;9; 1;1;8;1].
Lemma hills_ok : tree_ok UINT8 (CrossSE 1) hills.
Proof.
  assert (wf_img hills) as W by (split; [repeat split; cbn; lia|reflexivity]). destruct (element_check_ok (CrossSE 1) eq_refl) as (A & B).
  split; [auto|]. split; [exact W|]. split; [repeat constructor; cbn; lia|]. split; [repeat split; cbn; lia|]. split; [exact B|]. split; [discriminate|]. split; [exact A|].
  split; [apply (C43_connecting hills W); reflexivity|]. unfold MAX_NODES. cbn. lia.
Qed.
Example C43_case : tree_ok UINT8 (CrossSE 1) hills /\ (2 * length (pixs hills) + 1 <= 25)%nat /\
  areaOpen 25 UINT8 (CrossSE 1) hills 2 hills = Some (Some (1, Img (Dims 4 3 1) [1;5;1;2; 5;5;1;2; 1;1;1;1])) /\
  areaOpen 25 UINT8 (CrossSE 1) hills 3 hills = Some (Some (1, Img (Dims 4 3 1) [1;5;1;1; 5;5;1;1; 1;1;1;1])).
Proof. split; [exact hills_ok|]. split; [cbn; lia|]. split; vm_compute; reflexivity. Qed.
Example C75_case : heightOpen 25 UINT8 (CrossSE 1) hills 2 hills = Some (Some (1, Img (Dims 4 3 1) [1;5;1;2; 5;5;1;2; 1;1;1;1])) /\
  widthOpen 25 UINT8 (CrossSE 1) hills 2 hills = Some (Some (1, Img (Dims 4 3 1) [1;5;1;1; 5;5;1;1; 1;1;1;1])).
Proof. split; vm_compute; reflexivity. Qed.
Example C76_case : attributeClose 25 UINT8 CArea (CrossSE 1) hills 2 hills = Some (Some (1, Img (Dims 4 3 1) [5;5;1;2; 5;5;1;9; 1;1;8;8])).
Proof. vm_compute. reflexivity. Qed.
