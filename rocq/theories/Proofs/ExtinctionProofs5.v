(** Extinction values: the graph. *)
From Verif Require Export Proofs.ExtinctionProofs4.
From Verif Require Proofs.GraphProofs3.

Local Notation "l # i" := (znth 0 l i) (at level 9).

Lemma nth_rd_map {A} (f : A -> Z) l i : 0 <= i < Z.of_nat (length l) -> exists a, rd l i = Some a /\ (map f l) # i = f a.
Proof. intros Hi. destruct (rd l i) as [a|] eqn:E; [|exfalso; destruct (rd_in_range l i Hi) as (x & Hx); congruence]. exists a. split; [reflexivity|]. apply znth_rd. rewrite rd_map, E. reflexivity. Qed.

(** ** C98: the graph *)
Theorem ext_graph sort fuel k t t2 te se im markers out bas g : ext_call t t2 se im markers -> turns fuel im markers -> symmetric_se se -> sz out = sz im -> sz bas = sz im ->
  exists res g' vals, watershedExtinctionGraph fuel k t t2 te se im markers bas g = Some (Some (1, res, g')) /\ basins fuel t t2 se im markers bas = Some (Some (1, res)) /\
    watershedExtinction sort fuel k t t2 te se false im markers out bas = Some (Some (-100, (vals, res))) /\
    GraphSpec.good_graph g' /\ GraphSpec.acyclic (edges g') /\
    (forall e, In e (edges g') -> src e <> 0 /\ tgt e <> 0 /\ exists x y z x' y' z', sees se x y z x' y' z' /\ pixel_is res x y z (src e) /\ pixel_is res x' y' z' (tgt e)) /\
    (forall x y z x' y' z' l l', sees se x y z x' y' z' -> pixel_is res x y z l -> pixel_is res x' y' z' l' -> l <> 0 -> GraphSpec.linked (edges g') l l') /\
    exists eaten, NoDup eaten /\ length eaten = length (edges g') /\
      (forall i e a x y z, rd (edges g') i = Some e -> rd eaten i = Some a -> pixel_is markers x y z a -> pixel_is vals x y z (wt e)) /\
      (forall x y z l, pixel_is markers x y z l -> l <> 0 -> exists l', GraphSpec.linked (edges g') l l' /\ ~ In l' eaten /\
        forall x' y' z' l'', pixel_is markers x' y' z' l'' -> GraphSpec.linked (edges g') l l'' -> In l'' eaten \/ l'' = l').
Proof.
  intros (F & T0 & Hlt & Hex) Hf Hy So Sb. pose proof F as (Ht & Wi & Wm & Sm & Ti & Tm & Hs & Hw & Hp & HP). assert (Hsm : int_sized (sz markers)) by (rewrite Sm; exact Hs).
  pose proof (two_way_sym se (sz im) Hy HP) as Sy.
  destruct (any_run k t t2 te se im markers F T0 Hlt fuel (Some g) (proj1 Hf) (turns_top _ _ _ _ Wm Hsm Tm T0 Hlt Hf) (top_nonzero _ _ Wm Hsm Tm T0 Hlt Hex)) as (lbl & q & D & L & b & gg & stat & last & b' & E & E2 & IV & Hla & Le & Vb).
  destruct (forget_graph _ _ _ _ _ _ _ _ _ _ _ _ E) as (E0 & K). destruct gg as [g'|]; [|exfalso; apply K; congruence]. clear K.
  destruct (values_run k t t2 te se im markers out bas fuel lbl b' None F T0 Hlt So Sb sort E0 Le) as (vals & E3 & (V1 & V2 & V3)).
  pose proof (l_b _ _ _ _ _ _ _ _ _ _ _ _ _ _ _ _ _ _ _ IV) as BV. pose proof (b_len _ _ _ _ _ _ _ _ _ BV) as Ll.
  pose proof (l_x _ _ _ _ _ _ _ _ _ _ _ _ _ _ _ _ _ _ _ IV) as X. pose proof (l_D _ _ _ _ _ _ _ _ _ _ _ _ _ _ _ _ _ _ _ IV) as HD. pose proof (l_lbl _ _ _ _ _ _ _ _ _ _ _ _ _ _ _ _ _ _ _ IV) as Hlb.
  pose proof (l_g _ _ _ _ _ _ _ _ _ _ _ _ _ _ _ _ _ _ _ IV) as (G1 & G2 & G3 & G4 & eaten & N1 & N2 & N3).
  assert (Wo : wf_img (Img (sz im) lbl)) by (split; [apply Wi|cbn [pixs sz]; exact Ll]).
  assert (InD : forall p, 0 <= p < dw (sz im) * dh (sz im) * dd (sz im) -> lbl # p <> 0 -> In p D) by (intros p Hp0 Hl0; apply HD; repeat split; try tauto; try lia; intros []).
  assert (Top : forall x y z l, pixel_is markers x y z l -> 0 <= l <= top_label t2 markers).
  { intros x y z l P. destruct (top_spec t2 markers Wm Hsm Tm T0 Hlt) as (_ & _ & Hm & _). destruct (px_val (sz im) markers _ _ _ _ Sm P) as (_ & Rg & <-). apply Hm. pose proof Wm as (_ & Lm). unfold pixelCount in Lm. rewrite Sm in Lm. lia. }
  exists (Img (sz im) lbl), g', vals. split; [|split; [|split; [|split; [|split; [|split; [|split]]]]]].
  - unfold watershedExtinctionGraph, ext_flood_graph. rewrite !same_size_true by congruence. cbn [andb negb]. rewrite E. reflexivity.
  - exact (basins_run t t2 se im markers bas fuel lbl q F T0 Hlt Sb E2).
  - exact E3.
  - exact G1.
  - exact G3.
  - intros e He. destruct (G4 e He) as (S1 & S2 & p & p' & Cv & Ep & Ep'). split; [lia|]. split; [lia|].
    assert (Cv' : covers se (sz im) p p') by (destruct Cv; [apply Sy|]; assumption). destruct (covers_range _ _ _ _ Cv') as (R1 & R2). pose proof Cv' as (x & y & z & x' & y' & z' & I & I' & Ea & Eb & S).
    exists x, y, z, x', y', z'. split; [exact S|]. pose proof (px_at (sz im) (Img (sz im) lbl) x y z eq_refl Wo I) as P1. pose proof (px_at (sz im) (Img (sz im) lbl) x' y' z' eq_refl Wo I') as P2. cbn [pixs] in P1, P2.
    rewrite <- Ea in P1. rewrite <- Eb in P2. rewrite Ep in P1. rewrite Ep' in P2. auto.
  - intros x y z x' y' z' l l' S P P' Hl. destruct (px_val (sz im) (Img (sz im) lbl) _ _ _ _ eq_refl P) as (I & Rg & El). destruct (px_val (sz im) (Img (sz im) lbl) _ _ _ _ eq_refl P') as (I' & Rg' & El'). cbn [pixs] in El, El'.
    apply (sees_covers se (sz im)) in S; [|exact I|exact I'].
    pose proof (b_done _ _ _ _ _ _ _ _ _ BV _ _ Rg ltac:(congruence) ltac:(intros []) (Sy _ _ S)) as Hl'. rewrite El' in Hl'.
    pose proof (Hlb _ Rg) as B1. pose proof (Hlb _ Rg') as B2. apply G2; [lia|lia|]. rewrite <- El, <- El'. apply (x_adj _ _ _ _ _ _ _ _ _ _ _ _ _ X Sy _ _ (InD _ Rg ltac:(congruence)) (InD _ Rg' ltac:(congruence))). apply Sy. exact S.
  - exists eaten. split; [exact N1|]. split; [rewrite <- (map_length wt (edges g')), N3, map_length; reflexivity|]. split.
    + intros i e a x y z Re Ra P. assert (Ew : wt e = (bd_ext b) # a).
      { assert (H1 : rd (map wt (edges g')) i = Some (wt e)) by (rewrite rd_map, Re; reflexivity). rewrite N3, rd_map, Ra in H1. cbn in H1. congruence. }
      assert (Ha : In a eaten) by (apply rd_In in Ra; exact Ra). apply N2 in Ha as (Ha & Hne). pose proof (V3 _ _ _ _ P) as Pv. replace (a =? 0) with false in Pv by lia.
      destruct (x_eaten _ _ _ _ _ _ _ _ _ _ _ _ _ X a Ha Hne) as (Ity & _). rewrite Vb in Pv. unfold put in Pv.
      assert (Ns : a <> (bd_equ b) # (lbl # last)). { intros ->. apply Hne. apply (x_idem _ _ _ _ _ _ _ _ _ _ _ _ _ X). destruct (proj1 (HD last) Hla) as (Rl & _). apply Hlb. exact Rl. }
      replace (a =? (bd_equ b) # (lbl # last)) with false in Pv by lia. rewrite wrap_id in Pv by exact Ity. rewrite Ew. exact Pv.
    + intros x y z l P Hl. pose proof (Top _ _ _ _ P) as Bl. exists ((bd_equ b) # l). assert (B1 : 1 <= (bd_equ b) # l <= top_label t2 markers). { pose proof (x_pos _ _ _ _ _ _ _ _ _ _ _ _ _ X l ltac:(lia)). pose proof (x_rng _ _ _ _ _ _ _ _ _ _ _ _ _ X l ltac:(lia)). lia. }
      pose proof (x_idem _ _ _ _ _ _ _ _ _ _ _ _ _ X l ltac:(lia)) as Id. split; [apply G2; [lia|exact B1|congruence]|]. split; [intros H; apply N2 in H as (_ & H); congruence|].
      intros x' y' z' l'' P'' Hlk. pose proof (Top _ _ _ _ P'') as B2. destruct (Z.eq_dec l'' 0) as [->|Hnz].
      { right. exfalso. assert (K : forall a c, GraphSpec.linked (edges g') a c -> a <> 0 -> c <> 0); [|exact (K _ _ Hlk Hl eq_refl)]. clear -G4. intros a c H. induction H as [|c d e H IH He J]; [auto|]. intros Ha. destruct (G4 e He) as (S1 & S2 & _). unfold GraphSpec.joins in J. lia. }
      apply G2 in Hlk; [|lia|lia]. destruct (Z.eq_dec (bd_equ b) # l'' l'') as [E4|E4]; [right; congruence|left; apply N2; split; [lia|exact E4]].
Qed.
