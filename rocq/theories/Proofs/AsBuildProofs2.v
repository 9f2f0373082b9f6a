From Verif Require Export Proofs.AsBuildProofs.
Local Open Scope Z_scope.

Lemma as_parts t cs se im out : as_ok t cs se im out ->
  (t = UINT8 \/ t = UINT16) /\ wf_dims (sz im) /\ 0 < dw (sz im) /\ 0 < dh (sz im) /\ 0 < dd (sz im) /\ dw (sz im) < 2 ^ 63 /\ int_sized (sz im) /\ int_points se /\
  good_se se (sz im) /\ img_of t (sz im) im /\ sz out = sz im /\ se_size se < 2 ^ 32 - 1 /\ (forall i j k, legal_conf (dh (sz im)) (cs i j k)).
Proof.
  intros ((Ht & W & S & T & I & P & Pl) & GI & HG & HZ & L). destruct (good_nonempty im GI) as (A & B & C & D & E). repeat (split; [assumption|]).
  split; [split; [exact W|split; [reflexivity|exact T]]|]. auto.
Qed.

Section Val.
Context (t : ity) (se : strelt) (c : nat -> conf).

Lemma asBuildOpen_val fuel junk cs im out : as_ok t cs se im out -> enough im fuel -> (forall k, legal_conf (dh (sz im)) (c k)) ->
  asBuildOpen fuel t junk cs se im out = Some (Some (1, Mid img (recC t se c) (recO t se c) (Z.to_nat (se_size se)) im)).
Proof.
  intros HC F L. destruct (as_parts _ _ _ _ _ HC) as (Ht & Wd & W0 & W1 & W2 & WB & HI & HJ & HG & HT & So & HZ & Lc).
  unfold asBuildOpen. rewrite same_size_true by auto. cbn [negb]. rewrite (proj2 (Z.leb_gt _ _)) by exact HZ. change 1 with (Z.of_nat 0 + 1) at 1.
  rewrite (as_turns (sz im) (img_of t (sz im)) _ _ (recC t se c) (recO t se c)); [rewrite MidFrom_0; reflexivity| | | | | |exact HT|exact So].
  - intros A HA. apply HA.
  - intros n A HA. apply recC_T; assumption.
  - intros n A HA. apply recO_T; assumption.
  - intros n A o HA Ho. apply (open_is t se (sz im)); auto. apply (enough_sz im); auto; [apply HT|apply HA|apply HA].
  - intros n A o HA Ho. apply (close_is t se (sz im)); auto. apply (enough_sz im); auto; [apply HT|apply HA|apply HA].
Qed.
Lemma asBuildClose_val fuel junk cs im out : as_ok t cs se im out -> enough im fuel -> (forall k, legal_conf (dh (sz im)) (c k)) ->
  asBuildClose fuel t junk cs se im out = Some (Some (1, Mid img (recO t se c) (recC t se c) (Z.to_nat (se_size se)) im)).
Proof.
  intros HC F L. destruct (as_parts _ _ _ _ _ HC) as (Ht & Wd & W0 & W1 & W2 & WB & HI & HJ & HG & HT & So & HZ & Lc).
  unfold asBuildClose. rewrite same_size_true by auto. cbn [negb]. rewrite (proj2 (Z.leb_gt _ _)) by exact HZ. change 1 with (Z.of_nat 0 + 1) at 1.
  rewrite (as_turns (sz im) (img_of t (sz im)) _ _ (recO t se c) (recC t se c)); [rewrite MidFrom_0; reflexivity| | | | | |exact HT|exact So].
  - intros A HA. apply HA.
  - intros n A HA. apply recO_T; assumption.
  - intros n A HA. apply recC_T; assumption.
  - intros n A o HA Ho. apply (close_is t se (sz im)); auto. apply (enough_sz im); auto; [apply HT|apply HA|apply HA].
  - intros n A o HA Ho. apply (open_is t se (sz im)); auto. apply (enough_sz im); auto; [apply HT|apply HA|apply HA].
Qed.
End Val.

Section Rel.
Context (t : ity) (se : strelt) (s : dims) (c : nat -> conf).
Context (Ht : t = UINT8 \/ t = UINT16) (Ws : wf_dims s) (W0 : 0 < dw s) (W1 : 0 < dh s) (W2 : 0 < dd s) (WB : dw s < 2 ^ 63).
Context (HI : int_sized s) (HJ : int_points se) (HG : good_se se s) (Lc : forall k, legal_conf (dh s) (c k)).

Lemma recO_open n A : img_of t s A -> open_rec t se n A (recO t se c n A).
Proof.
  intros HA. eexists. split; [|apply (recO_ok t se s c); assumption]. pose proof HA as (W & S & _). rewrite (img_mk A W) at 1. rewrite S. apply (er_passes t (fun _ => 0) se s Ws W0 W1 W2 WB HG n _ c Lc).
Qed.
Lemma recC_close n A : img_of t s A -> close_rec t se n A (recC t se c n A).
Proof.
  intros HA. eexists. split; [|apply (recC_ok t se s c); assumption]. pose proof HA as (W & S & _). rewrite (img_mk A W) at 1. rewrite S. apply (dl_passes t (fun _ => 0) se s Ws W0 W1 W2 WB HG n _ c Lc).
Qed.
Lemma MidO_T n A : img_of t s A -> img_of t s (Mid img (recC t se c) (recO t se c) n A).
Proof. apply Mid_T; intros; [apply recC_T|apply recO_T]; assumption. Qed.
Lemma MidC_T n A : img_of t s A -> img_of t s (Mid img (recO t se c) (recC t se c) n A).
Proof. apply Mid_T; intros; [apply recO_T|apply recC_T]; assumption. Qed.
Lemma MidO_chain n A : img_of t s A -> alternating (open_rec t se) (close_rec t se) n A (Mid img (recC t se c) (recO t se c) n A).
Proof.
  intros HA. induction n as [|n IH]; [reflexivity|]. eexists _, _. split; [exact IH|]. pose proof (MidO_T n A HA). split; [apply recO_open; assumption|]. apply recC_close. apply recO_T; assumption.
Qed.
Lemma MidC_chain n A : img_of t s A -> alternating (close_rec t se) (open_rec t se) n A (Mid img (recO t se c) (recC t se c) n A).
Proof.
  intros HA. induction n as [|n IH]; [reflexivity|]. eexists _, _. split; [exact IH|]. pose proof (MidC_T n A HA). split; [apply recC_close; assumption|]. apply recO_open. apply recC_T; assumption.
Qed.

(** Flat zones. *)
Lemma zones_trans A B C : img_of t s A -> img_of t s B -> keeps_zones se A B -> keeps_zones se B C -> keeps_zones se A C.
Proof.
  intros (_ & SA & _) (WB' & SB & _) H H' x y z x' y' z' v u u' Hs Hv Hv' Hu Hu'. destruct (pixel_exists B x y z WB') as (w & Hw); [rewrite SB, <- SA; apply Hv|].
  destruct (pixel_exists B x' y' z' WB') as (w' & Hw'); [rewrite SB, <- SA; apply Hv'|]. pose proof (H _ _ _ _ _ _ _ _ _ Hs Hv Hv' Hw Hw') as <-.
  apply (H' _ _ _ _ _ _ _ _ _ Hs Hw Hw' Hu Hu').
Qed.
Context (Hsym : symmetric_se se).
Lemma recO_zones n A : img_of t s A -> keeps_zones se A (recO t se c n A).
Proof.
  intros HA. destruct (recO_ok t se s c Ht W0 W1 W2 WB HI HJ HG Lc n A HA) as (_ & _ & _ & H). pose proof HA as (_ & SA & _).
  assert (K : forall x y z x' y' z' v u u', sees se x y z x' y' z' -> pixel_is A x y z v -> pixel_is A x' y' z' v -> pixel_is (recO t se c n A) x y z u -> pixel_is (recO t se c n A) x' y' z' u' -> u' <= u).
  { intros x y z x' y' z' v u u' Hs Hv Hv' Hu Hu'. destruct (H _ _ _ _ Hu) as (_ & B). destruct (H _ _ _ _ Hu') as (F & _).
    pose proof (flows_le_mask _ _ _ _ _ _ _ _ F Hv'). specialize (B _ (flow_step _ _ _ _ _ _ _ _ _ _ _ _ F Hs Hv)). lia. }
  intros x y z x' y' z' v u u' Hs Hv Hv' Hu Hu'. pose proof (K _ _ _ _ _ _ _ _ _ Hs Hv Hv' Hu Hu').
  apply (sees_sym se s) in Hs; [|exact Hsym|apply (gse_pl _ _ HG)|rewrite <- SA; apply Hv'|rewrite <- SA; apply Hv]. pose proof (K _ _ _ _ _ _ _ _ _ Hs Hv' Hv Hu' Hu). lia.
Qed.
Lemma recC_zones n A : img_of t s A -> keeps_zones se A (recC t se c n A).
Proof.
  intros HA. destruct (recC_ok t se s c Ht W0 W1 W2 WB HI HJ HG Lc n A HA) as (_ & _ & _ & H). pose proof HA as (_ & SA & _).
  assert (K : forall x y z x' y' z' v u u', sees se x y z x' y' z' -> pixel_is A x y z v -> pixel_is A x' y' z' v -> pixel_is (recC t se c n A) x y z u -> pixel_is (recC t se c n A) x' y' z' u' -> u <= u').
  { intros x y z x' y' z' v u u' Hs Hv Hv' Hu Hu'. destruct (H _ _ _ _ Hu) as (_ & B). destruct (H _ _ _ _ Hu') as (F & _).
    pose proof (flows_ge_mask _ _ _ _ _ _ _ _ F Hv'). specialize (B _ (flow_step _ _ _ _ _ _ _ _ _ _ _ _ F Hs Hv)). lia. }
  intros x y z x' y' z' v u u' Hs Hv Hv' Hu Hu'. pose proof (K _ _ _ _ _ _ _ _ _ Hs Hv Hv' Hu Hu').
  apply (sees_sym se s) in Hs; [|exact Hsym|apply (gse_pl _ _ HG)|rewrite <- SA; apply Hv'|rewrite <- SA; apply Hv]. pose proof (K _ _ _ _ _ _ _ _ _ Hs Hv' Hv Hu' Hu). lia.
Qed.
Lemma zones_refl A : keeps_zones se A A.
Proof. intros x y z x' y' z' v u u' _ Hv Hv' Hu Hu'. rewrite (pixel_is_fun _ _ _ _ _ _ Hu Hv), (pixel_is_fun _ _ _ _ _ _ Hu' Hv'). reflexivity. Qed.
Lemma MidO_zones n A : img_of t s A -> keeps_zones se A (Mid img (recC t se c) (recO t se c) n A).
Proof.
  intros HA. induction n as [|n IH]; [apply zones_refl|]. pose proof (MidO_T n A HA) as HM. assert (HM' : img_of t s (recO t se c (S n) (Mid img (recC t se c) (recO t se c) n A))) by (apply recO_T; assumption).
  eapply zones_trans; [exact HA|exact HM|exact IH|]. cbn [Mid]. unfold mid. eapply zones_trans; [exact HM|exact HM'|apply recO_zones; exact HM|]. apply recC_zones. exact HM'.
Qed.
Lemma MidC_zones n A : img_of t s A -> keeps_zones se A (Mid img (recO t se c) (recC t se c) n A).
Proof.
  intros HA. induction n as [|n IH]; [apply zones_refl|]. pose proof (MidC_T n A HA) as HM. assert (HM' : img_of t s (recC t se c (S n) (Mid img (recO t se c) (recC t se c) n A))) by (apply recC_T; assumption).
  eapply zones_trans; [exact HA|exact HM|exact IH|]. cbn [Mid]. unfold mid. eapply zones_trans; [exact HM|exact HM'|apply recC_zones; exact HM|]. apply recO_zones. exact HM'.
Qed.

(** Negatives. *)
Lemma recO_neg n A B : img_of t s A -> img_of t s B -> negative t A B -> negative t (recO t se c n A) (recC t se c n B).
Proof.
  intros HA HB N. pose proof HA as (WA & SA & _). pose proof HB as (WB' & SB & _).
  eapply rebuilt_negative; [| | | |apply (recO_ok t se s c); assumption|apply (recC_ok t se s c); assumption]; auto using mk_img_wf.
  apply neg_mk; [exact Ws|]. intros x y z Hi. apply (er_neg t s se se HG HG); [|intros x1 y1 z1 H1|exact Hi].
  - split; [reflexivity|]. split; [reflexivity|]. exact Hsym.
  - apply neg_pxv; [exact WA|exact N|rewrite SA; exact H1].
Qed.
Lemma recC_neg n A B : img_of t s A -> img_of t s B -> negative t A B -> negative t (recC t se c n A) (recO t se c n B).
Proof.
  intros HA HB N. apply negative_back; [apply (recO_T t se s c); assumption|]. apply recO_neg; [exact HB|exact HA|]. apply negative_back; [apply HA|exact N].
Qed.
Lemma Mid_neg n A B : img_of t s A -> img_of t s B -> negative t A B -> negative t (Mid img (recC t se c) (recO t se c) n A) (Mid img (recO t se c) (recC t se c) n B).
Proof.
  intros HA HB N. induction n as [|n IH]; [exact N|]. cbn [Mid]. unfold mid. pose proof (MidO_T n A HA). pose proof (MidC_T n B HB).
  apply recC_neg; [apply recO_T; assumption|apply recC_T; assumption|]. apply recO_neg; assumption.
Qed.
End Rel.
