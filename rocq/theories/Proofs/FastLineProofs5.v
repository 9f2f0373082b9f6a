(** Erosions, openings and closings along a direction, and squares. *)
From Verif Require Import Spec.FastLineSpec Proofs.ImageFacts Proofs.PreludeFacts Proofs.LoopFacts Proofs.MorphProofs Proofs.HitOrMissProofs Proofs.FastLineProofs1 Proofs.FastLineProofs2 Proofs.FastLineProofs3 Proofs.FastLineProofs4.

Lemma along_sym dx dy r x y x' y' : along dx dy r x y x' y' -> along dx dy r x' y' x y.
Proof. unfold along. cbv zeta. destruct (Z.abs dy <=? Z.abs dx); intros (A & B); split; lia. Qed.
Lemma along_refl dx dy r x y : 0 <= r -> along dx dy r x y x y.
Proof. unfold along. cbv zeta. intros Hr. destruct (Z.abs dy <=? Z.abs dx); split; lia. Qed.
Lemma along_hor d r x y x' y' : d <> 0 -> along d 0 r x y x' y' <-> y = y' /\ Z.abs (x' - x) <= r.
Proof. intros Hd. unfold along. cbv zeta. replace (Z.abs 0 <=? Z.abs d) with true by (symmetry; apply Z.leb_le; lia). change (Z.sgn 0) with 0. split; intros (A & B); split; lia. Qed.
Lemma along_ver d r x y x' y' : d <> 0 -> along 0 d r x y x' y' <-> x = x' /\ Z.abs (y' - y) <= r.
Proof. intros Hd. unfold along. cbv zeta. replace (Z.abs d <=? Z.abs 0) with false by (symmetry; apply Z.leb_gt; lia). change (Z.sgn 0) with 0. split; intros (A & B); split; lia. Qed.

Lemma dilated_typed t dx dy r im D : wf_img im -> typed_img t im -> dilated_along dx dy r im D -> typed_img t D.
Proof. intros W T (S & W' & H). apply typed_pix; [exact W'|]. intros x y z v Hv. destruct (H x y z v Hv) as ((x' & y' & _ & P) & _). eapply typed_is; eassumption. Qed.
Lemma eroded_along_typed t dx dy r im D : wf_img im -> typed_img t im -> eroded_along dx dy r im D -> typed_img t D.
Proof. intros W T (S & W' & H). apply typed_pix; [exact W'|]. intros x y z v Hv. destruct (H x y z v Hv) as ((x' & y' & _ & P) & _). eapply typed_is; eassumption. Qed.
Lemma greatest_fun P u v : greatest P u -> greatest P v -> u = v.
Proof. intros (A & B) (C & D). specialize (B v C). specialize (D u A). lia. Qed.
Lemma least_fun P u v : least P u -> least P v -> u = v.
Proof. intros (A & B) (C & D). specialize (B v C). specialize (D u A). lia. Qed.
Lemma dilated_fun dx dy r im D D' : dilated_along dx dy r im D -> dilated_along dx dy r im D' -> D = D'.
Proof.
  intros (S & W & H) (S' & W' & H'). apply img_ext; [assumption..|congruence|]. intros x y z v Hv. destruct (pixel_exists D' x y z W') as (v' & Hv'); [rewrite S', <- S; apply Hv|].
  rewrite (greatest_fun _ _ _ (H _ _ _ _ Hv) (H' _ _ _ _ Hv')). exact Hv'.
Qed.
Lemma eroded_along_fun dx dy r im D D' : eroded_along dx dy r im D -> eroded_along dx dy r im D' -> D = D'.
Proof.
  intros (S & W & H) (S' & W' & H'). apply img_ext; [assumption..|congruence|]. intros x y z v Hv. destruct (pixel_exists D' x y z W') as (v' & Hv'); [rewrite S', <- S; apply Hv|].
  rewrite (least_fun _ _ _ (H _ _ _ _ Hv) (H' _ _ _ _ Hv')). exact Hv'.
Qed.

Lemma tmp_ok mem im : wf_img im -> wf_img (tmp_image mem im) /\ sz (tmp_image mem im) = sz im.
Proof. intros (A & B). split; [|reflexivity]. split; [exact A|]. cbn [sz pixs tmp_image]. rewrite map_length, zseq_length, Nat2Z.id. exact B. Qed.

Lemma call_again fuel alias dx dy r im out im' out' : line_call fuel alias im dx dy r out -> wf_img im' -> sz im' = sz im -> wf_img out' -> sz out' = sz im -> line_call fuel false im' dx dy r out'.
Proof.
  intros ((W & A & B & C) & WO & SO & AL & R & G & K1 & K2 & F) W' S' WO' SO'. unfold line_call, line_image, fuel_ok. rewrite !S'. split; [split; [exact W'|split; [exact A|split; assumption]]|]. split; [exact WO'|]. split; [congruence|]. split; [discriminate|]. repeat split; try assumption; try lia; try (apply K1; assumption); try (apply K2; assumption).
Qed.

Section Erode.
Variables (fuel : nat) (mem : Z -> Z) (t : ity) (im : img) (dx dy r : Z) (out : img).
Hypothesis (HC : line_call fuel false im dx dy r out) (HT : typed_img t im).

Lemma call_wf : wf_img im.
Proof using HC. destruct HC as ((W & _) & _). exact W. Qed.

Lemma lineErode_ok : exists E, lineErode fuel mem t im dx dy r out = Some (Some (1, E)) /\ eroded_along dx dy r im E.
Proof using HC HT.
  pose proof call_wf as W. destruct (inv_negative t im W HT) as (SN & WN & HN). set (N := pw1 (px_inv t) im) in *.
  assert (line_call fuel false N dx dy r out) as HCN. { destruct HC as (_ & WO & SO & _). eapply call_again; eassumption. }
  destruct (lineDilate_ok fuel mem false N dx dy r out HCN) as (D & E & HD). unfold lineErode. fold N. rewrite E. cbn [fuel_bind]. rewrite Z.eqb_refl. eexists. split; [reflexivity|].
  assert (typed_img t N) as TN. { apply typed_pix; [exact WN|]. intros x y z v Hv. destruct (pixel_exists im x y z W) as (u & Hu); [rewrite <- SN; apply Hv|]. rewrite (pixel_is_fun N x y z _ _ Hv (HN _ _ _ _ Hu)). pose proof (typed_is t im x y z u HT Hu). unfold inty in *. lia. }
  pose proof (dilated_typed t dx dy r N D WN TN HD) as TD. destruct HD as (SD & WD & HD). destruct (inv_negative t D WD TD) as (SE & WE & HE). split; [congruence|]. split; [exact WE|].
  intros x y z v Hv. destruct (pixel_exists D x y z WD) as (d & Hd); [rewrite <- SE; apply Hv|]. rewrite (pixel_is_fun _ x y z _ _ Hv (HE _ _ _ _ Hd)). destruct (HD x y z d Hd) as ((x' & y' & A & P) & HM). split.
  - exists x', y'. split; [exact A|]. destruct (pixel_exists im x' y' 0 W) as (u & Hu); [rewrite <- SN; apply P|]. rewrite (pixel_is_fun N x' y' 0 _ _ P (HN _ _ _ _ Hu)). replace (tmin t + tmax t - (tmin t + tmax t - u)) with u by lia. exact Hu.
  - intros u (x2 & y2 & A2 & P2). specialize (HM (tmin t + tmax t - u)). assert (tmin t + tmax t - u <= d); [|lia]. apply HM. exists x2, y2. split; [exact A2|]. apply HN. exact P2.
Qed.

End Erode.

Section Compose.
Variables (fuel : nat) (mem : Z -> Z) (t : ity) (im : img) (dx dy r : Z) (out : img).
Hypothesis (HC : line_call fuel false im dx dy r out) (HT : typed_img t im).

Lemma lineOpen_ok : exists E O, lineOpen fuel mem t im dx dy r out = Some (Some (1, O)) /\ eroded_along dx dy r im E /\ dilated_along dx dy r E O.
Proof using HC HT.
  pose proof (call_wf _ _ _ _ _ _ HC) as W. destruct (tmp_ok mem im W) as (WT & ST). pose proof HC as (_ & WO & SO & _).
  destruct (lineErode_ok fuel mem t im dx dy r (tmp_image mem im) ltac:(eapply call_again; try eassumption; reflexivity) HT) as (E & EE & HE). pose proof HE as (SE & WE & _).
  destruct (lineDilate_ok fuel mem false E dx dy r out ltac:(eapply call_again; eassumption)) as (D & ED & HD). exists E, D. unfold lineOpen. rewrite EE. cbn [fuel_bind]. rewrite Z.eqb_refl. auto.
Qed.
Lemma lineClose_ok : exists D C, lineClose fuel mem t im dx dy r out = Some (Some (1, C)) /\ dilated_along dx dy r im D /\ eroded_along dx dy r D C.
Proof using HC HT.
  pose proof (call_wf _ _ _ _ _ _ HC) as W. destruct (tmp_ok mem im W) as (WT & ST). pose proof HC as (_ & WO & SO & _).
  destruct (lineDilate_ok fuel mem false im dx dy r (tmp_image mem im) ltac:(eapply call_again; try eassumption; reflexivity)) as (D & EE & HE). pose proof HE as (SE & WE & _).
  destruct (lineErode_ok fuel mem t D dx dy r out ltac:(eapply call_again; eassumption) (dilated_typed _ _ _ _ _ _ W HT HE)) as (C & EC & HCl). exists D, C. unfold lineClose. rewrite EE. cbn [fuel_bind]. rewrite Z.eqb_refl. auto.
Qed.
End Compose.

(** ** Openings *)

Lemma eroded_le dx dy r im E x y z x' y' u v : dd (sz im) = 1 -> eroded_along dx dy r im E -> along dx dy r x y x' y' -> pixel_is E x y z u -> pixel_is im x' y' 0 v -> u <= v.
Proof. intros HD (_ & _ & H) HA Hu Hv. apply (proj2 (H x y z u Hu)). exists x', y'. auto. Qed.
Lemma opened_below dx dy r im E O : dd (sz im) = 1 -> eroded_along dx dy r im E -> dilated_along dx dy r E O -> le_img O im.
Proof.
  intros D HE (SO & WO & HO) x y z u v Hu Hv. destruct (HO x y z u Hu) as ((x' & y' & A & P) & _). assert (z = 0) as -> by (destruct Hv as ((_ & _ & Hz) & _); lia). apply (eroded_le dx dy r im E x' y' 0 x y u v D HE); [apply along_sym; exact A|exact P|exact Hv].
Qed.
Lemma eroded_mono dx dy r a b E F : sz a = sz b -> wf_img a -> wf_img b -> le_img a b -> eroded_along dx dy r a E -> eroded_along dx dy r b F -> le_img E F.
Proof.
  intros S Wa Wb L (SE & WE & HE) (SF & WF & HF) x y z u v Hu Hv. destruct (HF x y z v Hv) as ((x' & y' & A & P) & _). destruct (pixel_exists a x' y' 0 Wa) as (w & Pw); [rewrite S; apply P|].
  pose proof (proj2 (HE x y z u Hu) w). specialize (L x' y' 0 w v Pw P). assert (u <= w) by (apply H; exists x', y'; auto). lia.
Qed.
Lemma dilated_mono dx dy r a b D F : sz a = sz b -> wf_img a -> wf_img b -> le_img a b -> dilated_along dx dy r a D -> dilated_along dx dy r b F -> le_img D F.
Proof.
  intros S Wa Wb L (SE & WE & HE) (SF & WF & HF) x y z u v Hu Hv. destruct (HE x y z u Hu) as ((x' & y' & A & P) & _). destruct (pixel_exists b x' y' 0 Wb) as (w & Pw); [rewrite <- S; apply P|].
  pose proof (proj2 (HF x y z v Hv) w). specialize (L x' y' 0 u w P Pw). assert (w <= v) by (apply H; exists x', y'; auto). lia.
Qed.
Lemma opened_again dx dy r im E O E' O' : dd (sz im) = 1 -> wf_img im -> eroded_along dx dy r im E -> dilated_along dx dy r E O -> eroded_along dx dy r O E' -> dilated_along dx dy r E' O' -> O' = O.
Proof.
  intros D W HE HO HE' HO'. pose proof HE as (SE & WE & _). pose proof HO as (SO & WO & HO1). pose proof HE' as (SE' & WE' & HE1). pose proof HO' as (SO' & WO' & _).
  assert (le_img E E') as L1.
  { intros x y z u v Hu Hv. destruct (HE1 x y z v Hv) as ((x' & y' & A & P) & _). destruct (HO1 x' y' 0 v P) as (_ & HM). apply HM. assert (z = 0) as -> by (destruct Hu as ((_ & _ & Hz) & _); rewrite SE in Hz; lia). exists x, y. split; [apply along_sym; exact A|exact Hu]. }
  assert (le_img O O') as L2 by (apply (dilated_mono dx dy r E E'); try assumption; congruence).
  assert (le_img O' O) as L3 by (apply (opened_below dx dy r O E'); try assumption; rewrite SO, SE; exact D).
  apply img_ext; [assumption..|congruence|]. intros x y z v Hv. destruct (pixel_exists O x y z WO) as (u & Hu); [rewrite <- SE', <- SO'; apply Hv|]. specialize (L2 x y z u v Hu Hv). specialize (L3 x y z v u Hv Hu). replace v with u by lia. exact Hu.
Qed.
Lemma closed_above dx dy r im D C : dd (sz im) = 1 -> dilated_along dx dy r im D -> eroded_along dx dy r D C -> le_img im C.
Proof.
  intros DD (SD & WD & HD) (SC & WC & HC) x y z u v Hu Hv. assert (z = 0) as -> by (destruct Hu as ((_ & _ & Hz) & _); lia). destruct (HC x y 0 v Hv) as ((x' & y' & A & P) & _). destruct (HD x' y' 0 v P) as (_ & HM). apply HM. exists x, y. split; [apply along_sym; exact A|exact Hu].
Qed.
Lemma closed_again dx dy r im D C D' C' : dd (sz im) = 1 -> wf_img im -> dilated_along dx dy r im D -> eroded_along dx dy r D C -> dilated_along dx dy r C D' -> eroded_along dx dy r D' C' -> C' = C.
Proof.
  intros DD W HD HC HD' HC'. pose proof HD as (SD & WD & _). pose proof HC as (SC & WC & HC1). pose proof HD' as (SD' & WD' & HD1). pose proof HC' as (SC' & WC' & _).
  assert (le_img D' D) as L1.
  { intros x y z u v Hu Hv. destruct (HD1 x y z u Hu) as ((x' & y' & A & P) & _). destruct (HC1 x' y' 0 u P) as (_ & HM). apply HM. assert (z = 0) as -> by (destruct Hv as ((_ & _ & Hz) & _); rewrite SD in Hz; lia). exists x, y. split; [apply along_sym; exact A|exact Hv]. }
  assert (le_img C' C) as L2 by (apply (eroded_mono dx dy r D' D); try assumption; congruence).
  assert (le_img C C') as L3 by (apply (closed_above dx dy r C D'); try assumption; rewrite SC, SD; exact DD).
  apply img_ext; [assumption..|congruence|]. intros x y z v Hv. destruct (pixel_exists C x y z WC) as (u & Hu); [rewrite <- SD', <- SC'; apply Hv|]. specialize (L2 x y z v u Hv Hu). specialize (L3 x y z u v Hu Hv). replace v with u by lia. exact Hu.
Qed.

(** ** Squares *)

Definition square_values (r : Z) (im : img) (x y v : Z) : Prop := exists x' y', Z.abs (x' - x) <= r /\ Z.abs (y' - y) <= r /\ pixel_is im x' y' 0 v.
Definition square_dilated (r : Z) (im D : img) : Prop := sz D = sz im /\ wf_img D /\ forall x y z v, pixel_is D x y z v -> greatest (square_values r im x y) v.
Definition square_eroded (r : Z) (im D : img) : Prop := sz D = sz im /\ wf_img D /\ forall x y z v, pixel_is D x y z v -> least (square_values r im x y) v.

Lemma two_dilations d e r im A D : d <> 0 -> e <> 0 -> wf_img im -> dd (sz im) = 1 -> dilated_along d 0 r im A -> dilated_along 0 e r A D -> square_dilated r im D.
Proof.
  intros Hd He W DD (SA & WA & HA) (SD & WD & HD). split; [congruence|]. split; [exact WD|]. intros x y z v Hv. destruct (HD x y z v Hv) as ((x1 & y1 & A1 & P1) & M1). apply along_ver in A1; [|exact He]. destruct A1 as (<- & A1).
  destruct (HA x y1 0 v P1) as ((x2 & y2 & A2 & P2) & M2). apply along_hor in A2; [|exact Hd]. destruct A2 as (<- & A2). split.
  - exists x2, y1. split; [exact A2|]. split; [exact A1|exact P2].
  - intros u (x3 & y3 & B1 & B2 & P3). assert (inside (sz A) x y3 0) as I. { rewrite SA. destruct P3 as ((Ix & Iy & Iz) & _). destruct Hv as ((Jx & Jy & Jz) & _). rewrite SD, SA in Jx. split; [exact Jx|split; assumption]. }
    destruct (pixel_exists A x y3 0 WA I) as (w & Pw). assert (u <= w) by (apply (proj2 (HA x y3 0 w Pw)); exists x3, y3; split; [apply along_hor; [exact Hd|auto]|exact P3]).
    assert (w <= v) by (apply M1; exists x, y3; split; [apply along_ver; [exact He|auto]|exact Pw]). lia.
Qed.
Lemma two_erosions d e r im A D : d <> 0 -> e <> 0 -> wf_img im -> dd (sz im) = 1 -> eroded_along d 0 r im A -> eroded_along 0 e r A D -> square_eroded r im D.
Proof.
  intros Hd He W DD (SA & WA & HA) (SD & WD & HD). split; [congruence|]. split; [exact WD|]. intros x y z v Hv. destruct (HD x y z v Hv) as ((x1 & y1 & A1 & P1) & M1). apply along_ver in A1; [|exact He]. destruct A1 as (<- & A1).
  destruct (HA x y1 0 v P1) as ((x2 & y2 & A2 & P2) & M2). apply along_hor in A2; [|exact Hd]. destruct A2 as (<- & A2). split.
  - exists x2, y1. split; [exact A2|]. split; [exact A1|exact P2].
  - intros u (x3 & y3 & B1 & B2 & P3). assert (inside (sz A) x y3 0) as I. { rewrite SA. destruct P3 as ((Ix & Iy & Iz) & _). destruct Hv as ((Jx & Jy & Jz) & _). rewrite SD, SA in Jx. split; [exact Jx|split; assumption]. }
    destruct (pixel_exists A x y3 0 WA I) as (w & Pw). assert (w <= u) by (apply (proj2 (HA x y3 0 w Pw)); exists x3, y3; split; [apply along_hor; [exact Hd|auto]|exact P3]).
    assert (v <= w) by (apply M1; exists x, y3; split; [apply along_ver; [exact He|auto]|exact Pw]). lia.
Qed.

Lemma square_call0 fuel im r out im' out' : square_call fuel im r out -> wf_img im' -> sz im' = sz im -> wf_img out' -> sz out' = sz im -> line_call fuel false im' (fst (dir0 im)) (snd (dir0 im)) r out'.
Proof.
  intros ((W & A & B & C) & WO & SO & R & K1 & K2 & F) W' S' WO' SO'. unfold line_call, line_image, fuel_ok, dir0, good_dir, width, height. cbn [fst snd]. rewrite !S'. split; [split; [exact W'|split; [exact A|split; assumption]]|]. split; [exact WO'|]. split; [congruence|]. split; [discriminate|]. repeat split; try lia; try (apply K1; assumption); try (apply K2; assumption).
Qed.
Lemma square_call90 fuel im r out im' out' : square_call fuel im r out -> wf_img im' -> sz im' = sz im -> wf_img out' -> sz out' = sz im -> line_call fuel false im' (fst (dir90 im)) (snd (dir90 im)) r out'.
Proof.
  intros ((W & A & B & C) & WO & SO & R & K1 & K2 & F) W' S' WO' SO'. unfold line_call, line_image, fuel_ok, dir90, good_dir, width, height. cbn [fst snd]. rewrite !S'. split; [split; [exact W'|split; [exact A|split; assumption]]|]. split; [exact WO'|]. split; [congruence|]. split; [discriminate|]. repeat split; try lia; try (apply K1; assumption); try (apply K2; assumption).
Qed.

Section Square.
Variables (fuel : nat) (mem : Z -> Z) (t : ity) (im : img) (r : Z) (out : img).
Hypothesis (HC : square_call fuel im r out) (HT : typed_img t im).

Lemma square_parts : wf_img im /\ wf_img out /\ sz out = sz im /\ dd (sz im) = 1 /\ fst (dir0 im) <> 0 /\ snd (dir90 im) <> 0.
Proof using HC. clear mem. destruct HC as ((W & A & B & C) & WO & SO & _). repeat split; try assumption; try apply W; try apply WO; unfold dir0, dir90, width, height; cbn [fst snd]; lia. Qed.

(** One half: the two steps from any image to any other of that size. *)
Lemma half_dilation a tmp o : wf_img a -> sz a = sz im -> wf_img tmp -> sz tmp = sz im -> wf_img o -> sz o = sz im -> exists A D,
  lineDilate fuel mem false a (fst (dir0 im)) (snd (dir0 im)) r tmp = Some (Some (1, A)) /\ sz A = sz im /\ wf_img A /\
  lineDilate fuel mem false A (fst (dir90 im)) (snd (dir90 im)) r o = Some (Some (1, D)) /\ square_dilated r a D.
Proof using HC.
  intros Wa Sa Wt St Wo So. pose proof square_parts as (W & WO & SO & DD & N0 & N9).
  destruct (lineDilate_ok fuel mem false a _ _ r tmp (square_call0 fuel im r out a tmp HC Wa Sa Wt St)) as (A & EA & HA). pose proof HA as (SA & WA & _).
  destruct (lineDilate_ok fuel mem false A _ _ r o (square_call90 fuel im r out A o HC WA (eq_trans SA Sa) Wo So)) as (D & ED & HD). exists A, D. split; [exact EA|]. split; [congruence|]. split; [exact WA|]. split; [exact ED|].
  apply (two_dilations (fst (dir0 im)) (snd (dir90 im)) r a A D N0 N9 Wa); [rewrite Sa; exact DD|exact HA|exact HD].
Qed.
Lemma half_erosion a tmp o : wf_img a -> sz a = sz im -> typed_img t a -> wf_img tmp -> sz tmp = sz im -> wf_img o -> sz o = sz im -> exists A D,
  lineErode fuel mem t a (fst (dir0 im)) (snd (dir0 im)) r tmp = Some (Some (1, A)) /\ sz A = sz im /\ wf_img A /\
  lineErode fuel mem t A (fst (dir90 im)) (snd (dir90 im)) r o = Some (Some (1, D)) /\ square_eroded r a D.
Proof using HC.
  intros Wa Sa Ta Wt St Wo So. pose proof square_parts as (W & WO & SO & DD & N0 & N9).
  destruct (lineErode_ok fuel mem t a _ _ r tmp (square_call0 fuel im r out a tmp HC Wa Sa Wt St) Ta) as (A & EA & HA). pose proof HA as (SA & WA & _).
  destruct (lineErode_ok fuel mem t A _ _ r o (square_call90 fuel im r out A o HC WA (eq_trans SA Sa) Wo So) (eroded_along_typed _ _ _ _ _ _ Wa Ta HA)) as (D & ED & HD). exists A, D. split; [exact EA|]. split; [congruence|]. split; [exact WA|]. split; [exact ED|].
  apply (two_erosions (fst (dir0 im)) (snd (dir90 im)) r a A D N0 N9 Wa); [rewrite Sa; exact DD|exact HA|exact HD].
Qed.

Lemma squareDilate_ok : exists D, squareDilate fuel mem im r out = Some (Some (1, D)) /\ square_dilated r im D.
Proof using HC.
  pose proof square_parts as (W & WO & SO & _). destruct (tmp_ok mem im W) as (WT & ST). destruct (half_dilation im (tmp_image mem im) out W eq_refl WT ST WO SO) as (A & D & EA & _ & _ & ED & HD).
  exists D. split; [|exact HD]. unfold squareDilate, then_. rewrite EA. cbn [fuel_bind]. rewrite Z.eqb_refl. exact ED.
Qed.
Lemma squareErode_ok : exists D, squareErode fuel mem t im r out = Some (Some (1, D)) /\ square_eroded r im D.
Proof using HC HT.
  pose proof square_parts as (W & WO & SO & _). destruct (tmp_ok mem im W) as (WT & ST). destruct (half_erosion im (tmp_image mem im) out W eq_refl HT WT ST WO SO) as (A & D & EA & _ & _ & ED & HD).
  exists D. split; [|exact HD]. unfold squareErode, then_. rewrite EA. cbn [fuel_bind]. rewrite Z.eqb_refl. exact ED.
Qed.
Lemma square_eroded_typed a D : typed_img t a -> square_eroded r a D -> typed_img t D.
Proof using. intros T (S & W & H). apply typed_pix; [exact W|]. intros x y z v Hv. destruct (H x y z v Hv) as ((x' & y' & _ & _ & P) & _). eapply typed_is; eassumption. Qed.
Lemma square_dilated_typed a D : typed_img t a -> square_dilated r a D -> typed_img t D.
Proof using. intros T (S & W & H). apply typed_pix; [exact W|]. intros x y z v Hv. destruct (H x y z v Hv) as ((x' & y' & _ & _ & P) & _). eapply typed_is; eassumption. Qed.

Lemma squareOpen_ok : exists E O, squareOpen fuel mem t im r out = Some (Some (1, O)) /\ square_eroded r im E /\ square_dilated r E O.
Proof using HC HT.
  pose proof square_parts as (W & WO & SO & _). destruct (tmp_ok mem im W) as (WT & ST). destruct (half_erosion im (tmp_image mem im) out W eq_refl HT WT ST WO SO) as (A & E & EA & SA & WA & EE & HE). pose proof HE as (SE & WE & _).
  destruct (half_dilation E A E WE SE WA SA WE SE) as (B & O & EB & _ & _ & EO & HO). exists E, O. split; [|split; assumption]. unfold squareOpen, then_. rewrite EA. cbn [fuel_bind]. rewrite Z.eqb_refl. cbv iota. rewrite EE. cbn [fuel_bind]. rewrite Z.eqb_refl. cbv iota. rewrite EB. cbn [fuel_bind]. rewrite Z.eqb_refl. exact EO.
Qed.
Lemma squareClose_ok : exists D C, squareClose fuel mem t im r out = Some (Some (1, C)) /\ square_dilated r im D /\ square_eroded r D C.
Proof using HC HT.
  pose proof square_parts as (W & WO & SO & _). destruct (tmp_ok mem im W) as (WT & ST). destruct (half_dilation im (tmp_image mem im) out W eq_refl WT ST WO SO) as (A & E & EA & SA & WA & EE & HE). pose proof HE as (SE & WE & _).
  destruct (half_erosion E A E WE SE (square_dilated_typed im E HT HE) WA SA WE SE) as (B & O & EB & _ & _ & EO & HO). exists E, O. split; [|split; assumption]. unfold squareClose, then_. rewrite EA. cbn [fuel_bind]. rewrite Z.eqb_refl. cbv iota. rewrite EE. cbn [fuel_bind]. rewrite Z.eqb_refl. cbv iota. rewrite EB. cbn [fuel_bind]. rewrite Z.eqb_refl. exact EO.
Qed.
End Square.
