(** C77: area openings and closings by union-find. *)
From Verif Require Export Proofs.UnionFindProofs5 Props.P_MaxTree.

(** ** C77.  areaOpening gives every pixel the highest level, not above its value, whose component around it has [n] pixels or
    more (the least value that can be reached from the pixel if there is none), and it terminates: its recursion is never deeper
    than the number of pixels.  For symmetric elements without the hexagonal shift, sizes from 1, and an output image that is
    not the input image. *)
Theorem C77_areaOpening_partial : forall fuel t se im imOut n, wf_img im -> typed_img t im -> wf_img imOut -> sz imOut = sz im ->
  se_odd se = false -> symmetric_se se -> 1 <= n < 2 ^ 63 -> (length (pixs im) < fuel)%nat ->
  exists out, areaOpening fuel t se false im n imOut = Some (Some (1, out)) /\ area_opened n se im out.
Proof. exact areaOpening_spec. Qed.
Print Assumptions C77_areaOpening_partial.

Theorem C77_areaClosing_partial : forall fuel t se im imOut n, wf_img im -> typed_img t im -> wf_img imOut -> sz imOut = sz im ->
  se_odd se = false -> symmetric_se se -> 1 <= n < 2 ^ 63 -> (length (pixs im) < fuel)%nat ->
  exists out, areaClosing fuel t se im n imOut = Some (Some (1, out)) /\ area_closed n se im out.
Proof. exact areaClosing_spec. Qed.
Print Assumptions C77_areaClosing_partial.

Theorem C77_unique : forall n se im out out', wf_img im -> area_opened n se im out -> area_opened n se im out' -> out = out'.
Proof. exact area_unique. Qed.
Print Assumptions C77_unique.

(** The two implementations agree: by union-find and by max-tree, where the max-tree can be built. *)
Theorem C77_agree_partial : forall fuel fuel' t se im imOut imOut' n, tree_ok t se im -> wf_img imOut -> sz imOut = sz im -> sz imOut' = sz im ->
  se_odd se = false -> 1 <= n < 2 ^ 63 -> (length (pixs im) < fuel)%nat -> (2 * length (pixs im) + 1 <= fuel')%nat ->
  exists out, areaOpening fuel t se false im n imOut = Some (Some (1, out)) /\ areaOpen fuel' t se im n imOut' = Some (Some (1, out)).
Proof.
  intros fuel fuel' t se im imOut imOut' n T Wo So So' Hodd Hn F F'. pose proof T as (_ & W & Ty & _ & _ & _ & Hsy & Hc & _).
  destruct (areaOpening_spec fuel t se im imOut n) as (o & E & A); try assumption. destruct (C43_areaOpen_partial fuel' t se im imOut' n T So' F') as (o' & E' & A').
  exists o. split; [exact E|]. rewrite E'. f_equal. f_equal. f_equal. pose proof A' as (_ & _ & m & M & _).
  exact (opened_unique CArea n se im o' o W A' (area_attr n se im o m Hc M A)).
Qed.
Print Assumptions C77_agree_partial.

(** Written over its input, it makes the histogram after the image has been cleared: another result. *)
Theorem C77_in_place_refuted : exists out out', areaOpening 25 UINT8 (CrossSE 1) false hills 2 hills = Some (Some (1, out)) /\
  areaOpening 25 UINT8 (CrossSE 1) true hills 2 hills = Some (Some (1, out')) /\ area_opened 2 (CrossSE 1) hills out /\ ~ area_opened 2 (CrossSE 1) hills out'.
Proof.
  destruct hills_ok as (_ & W & Ty & _ & _ & _ & Hsy & _).
  destruct (areaOpening_spec 25 UINT8 (CrossSE 1) hills hills 2 W Ty W eq_refl eq_refl Hsy) as (o & E & A); [lia|cbn; lia|].
  assert (E' : areaOpening 25 UINT8 (CrossSE 1) true hills 2 hills = Some (Some (1, Img (Dims 4 3 1) [1;1;1;2;5;5;1;1;1;1;1;1]))) by (vm_compute; reflexivity).
  eexists o, _. split; [exact E|]. split; [exact E'|]. split; [exact A|]. intros A'. pose proof (area_unique _ _ _ _ _ W A A') as ->. vm_compute in E. discriminate E.
Qed.
Print Assumptions C77_in_place_refuted.

(** The neighbours are not shifted on hexagonal grids: another result than the max-tree. *)
Theorem C77_hexagonal_refuted : exists out out', tree_ok UINT8 (HexSE 1) hills /\ areaOpening 25 UINT8 (HexSE 1) false hills 2 hills = Some (Some (1, out)) /\
  areaOpen 25 UINT8 (HexSE 1) hills 2 hills = Some (Some (1, out')) /\ attr_opened CArea 2 (HexSE 1) hills out' /\ out <> out'.
Proof.
  assert (T : tree_ok UINT8 (HexSE 1) hills).
  { destruct hills_ok as (A & W & Ty & Hs & _ & _ & _ & _ & HN). destruct (element_check_ok (HexSE 1) eq_refl) as (S & B). split; [exact A|]. split; [exact W|]. split; [exact Ty|]. split; [exact Hs|].
    split; [exact B|]. split; [intros _; cbn; repeat split; try lia; intros p Hp; vm_compute in Hp; intuition (subst; reflexivity)|]. split; [exact S|]. split; [apply (C43_connecting hills W); reflexivity|exact HN]. }
  destruct (C43_areaOpen_partial 25 UINT8 (HexSE 1) hills hills 2 T eq_refl) as (o & E & A); [cbn; lia|].
  eexists _, o. split; [exact T|]. split; [vm_compute; reflexivity|]. split; [exact E|]. split; [exact A|]. vm_compute in E. injection E as <-. discriminate.
Qed.
Print Assumptions C77_hexagonal_refuted.

(** With the size 0, parents make a cycle and the recursion never ends. *)
Lemma cyc_find par : rd par 0 = Some 1 -> rd par 1 = Some 0 -> forall fuel, uf_find fuel par 0 = Some None /\ uf_find fuel par 1 = Some None.
Proof. intros A B. induction fuel as [|fuel (I & J)]; [auto|]. cbn [uf_find]. rewrite A, B. cbn. rewrite I, J. auto. Qed.

Theorem C77_size_zero_refuted : exists im, wf_img im /\ typed_img UINT8 im /\ forall fuel, areaOpening fuel UINT8 (CrossSE 1) false im 0 im = Some None.
Proof.
  exists (Img (Dims 3 2 1) [1; 1; 1; 5; 5; 5]). split; [split; [repeat split; cbn; lia|reflexivity]|]. split; [repeat constructor; cbn; lia|].
  intros fuel. destruct fuel as [|[|[|[|f]]]]; [vm_compute; reflexivity..|].
  destruct (cyc_find [1; 0; -1; 5; 5; -3] eq_refl eq_refl f) as (_ & C). vm_compute in C |- *. rewrite C. reflexivity.
Qed.
Print Assumptions C77_size_zero_refuted.

(** A case where the hypotheses hold. *)
Example C77_case : wf_img hills /\ typed_img UINT8 hills /\ se_odd (CrossSE 1) = false /\ symmetric_se (CrossSE 1) /\
  areaOpening 13 UINT8 (CrossSE 1) false hills 2 hills = Some (Some (1, Img (Dims 4 3 1) [1;5;1;2; 5;5;1;2; 1;1;1;1])) /\
  areaOpening 13 UINT8 (HorizSE 1) false hills 3 hills = Some (Some (1, Img (Dims 4 3 1) [1;1;1;1; 1;1;1;1; 1;1;1;1])) /\
  areaOpening 13 INT8 (HorizSE 1) false (Img (Dims 3 2 1) [-4; -5; 7; 3; 3; 1]) 2 hills = Some (Some (-98, hills)) /\
  areaOpening 13 INT8 (HorizSE 1) false (Img (Dims 3 2 1) [-4; -5; 7; 3; 3; 1]) 2 (Img (Dims 3 2 1) [0; 0; 0; 0; 0; 0]) = Some (Some (1, Img (Dims 3 2 1) [-5; -5; -5; 3; 3; 1])) /\
  areaClosing 13 UINT8 (CrossSE 1) hills 2 hills = Some (Some (1, Img (Dims 4 3 1) [5;5;1;2; 5;5;1;9; 1;1;8;8])).
Proof.
  destruct hills_ok as (_ & W & Ty & _ & _ & _ & Hsy & _). split; [exact W|]. split; [exact Ty|]. split; [reflexivity|]. split; [exact Hsy|]. repeat split; vm_compute; reflexivity.
Qed.
