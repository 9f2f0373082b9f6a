(** minimaLabeled and maximaLabeled. *)
From Verif Require Export Proofs.LabelUses2.

Section Marked.
Context (t : ity) (se : strelt) (im O : img) (P : Z -> Z -> Z -> Z -> Prop).
Context (HM : marks t P im O) (Hy : symmetric_se se) (HP : planar se (sz im)).
Context (HA : forall x y z v x' y' z' v', pixel_is im x y z v -> pixel_is im x' y' z' v' -> sees se x' y' z' x y z -> P x y z v -> P x' y' z' v' -> v = v').
Context (HB : forall x y z v x' y' z', pixel_is im x y z v -> pixel_is im x' y' z' v -> sees se x' y' z' x y z -> P x y z v -> P x' y' z' v).

Lemma mark_nz x y z v o : pixel_is im x y z v -> pixel_is O x y z o -> (P x y z v <-> o <> 0) /\ (o = 0 \/ o = tmax t).
Proof.
  destruct HM as (_ & _ & H). intros Pv Po. pose proof (tmax_big t). destruct (H x y z v Pv) as [[A B]|[A B]]; pose proof (pixel_is_fun _ _ _ _ _ _ Po B) as ->; split; try tauto; split; intros; try lia; tauto.
Qed.

Lemma mark_linked x y z v x' y' z' : wf_img im -> pixel_is im x y z v -> P x y z v -> (linked se eq O x y z x' y' z' <-> linked se eq im x y z x' y' z').
Proof.
  intros Wi Pv Hp. pose proof HM as (Es & Wo & _). assert (Px : forall a b c o, pixel_is O a b c o -> exists w, pixel_is im a b c w) by (intros a b c o [I _]; apply pixel_exists; [exact Wi|rewrite <- Es; exact I]).
  assert (Po : forall a b c w, pixel_is im a b c w -> exists o, pixel_is O a b c o) by (intros a b c o [I _]; apply pixel_exists; [exact Wo|rewrite Es; exact I]).
  split; intros L.
  - enough (linked se eq im x y z x' y' z' /\ forall w, pixel_is im x' y' z' w -> P x' y' z' w) by tauto.
    induction L as [o Q|a b c o a' b' c' o' L IH Q Q' S E].
    + split; [econstructor; exact Pv|]. intros w Pw. pose proof (pixel_is_fun _ _ _ _ _ _ Pv Pw). congruence.
    + destruct IH as (L' & Hw). destruct (Px _ _ _ _ Q) as (w & Pw), (Px _ _ _ _ Q') as (w' & Pw'). pose proof (Hw w Pw) as Hpw.
      pose proof (proj1 (mark_nz _ _ _ _ _ Pw Q)) as N. pose proof (proj1 (mark_nz _ _ _ _ _ Pw' Q')) as N'. assert (Hpw' : P a' b' c' w') by (apply N'; subst; apply N; exact Hpw).
      pose proof (HA _ _ _ _ _ _ _ _ Pw Pw' S Hpw Hpw') as E'. subst w'. split; [econstructor; eauto|]. intros u Pu. pose proof (pixel_is_fun _ _ _ _ _ _ Pw' Pu). congruence.
  - enough (linked se eq O x y z x' y' z' /\ forall w, pixel_is im x' y' z' w -> P x' y' z' w) by tauto.
    induction L as [o Q|a b c w a' b' c' w' L IH Q Q' S E].
    + destruct (Po _ _ _ _ Pv) as (o' & Q'). split; [econstructor; exact Q'|]. intros w Pw. pose proof (pixel_is_fun _ _ _ _ _ _ Pv Pw). congruence.
    + subst w'. destruct IH as (L' & Hw). pose proof (Hw w Q) as Hpw. pose proof (HB _ _ _ _ _ _ _ Q Q' S Hpw) as Hpw'.
      destruct (Po _ _ _ _ Q) as (o & Qo), (Po _ _ _ _ Q') as (o' & Qo'). pose proof (mark_nz _ _ _ _ _ Q Qo) as (N & V). pose proof (mark_nz _ _ _ _ _ Q' Qo') as (N' & V').
      split; [econstructor; [exact L'|exact Qo|exact Qo'|exact S|]|].
      * apply N in Hpw. apply N' in Hpw'. destruct V, V'; congruence.
      * intros u Pu. pose proof (pixel_is_fun _ _ _ _ _ _ Q' Pu). congruence.
Qed.

Lemma marked_labels fuel t2 dse out reps : wf_img im -> int_sized (sz im) -> int_points se -> se_size se <= 1 -> sz out = sz im -> label_enough im fuel ->
  (forall x y z v, pixel_is im x y z v -> P x y z v -> exists a b c, In (a, b, c) reps /\ linked se eq im x y z a b c) -> Z.of_nat (length reps) < tmax t2 ->
  exists n w res, label fuel t2 dse se false O out = Some (Some (n, w, res)) /\ (forall x y z o, pixel_is res x y z o -> 0 <= o <= Z.of_nat (length reps)) /\ sz res = sz im /\ wf_img res /\
    (forall x y z v o, pixel_is im x y z v -> pixel_is res x y z o -> (o <> 0 <-> P x y z v)) /\
    (forall x y z v x' y' z' v' o o', pixel_is im x y z v -> pixel_is im x' y' z' v' -> P x y z v -> P x' y' z' v' ->
       pixel_is res x y z o -> pixel_is res x' y' z' o' -> (o = o' <-> linked se eq im x y z x' y' z')).
Proof.
  intros Wi Hs Hp Hsz Eo Hf Hr Hn. pose proof HM as (Es & Wo & _). assert (Els : scaled se = se) by (unfold scaled; destruct (se_size se >? 1) eqn:E; [lia|reflexivity]).
  assert (Hok : label_ok se O) by (unfold label_ok; rewrite Els, Es; split; [exact Wo|auto]).
  assert (HfO : label_enough O fuel). { unfold label_enough in *. destruct Wi as [_ Wi], Wo as [_ Wo]. rewrite Es in Wo. lia. }
  destruct (label_call fuel t2 dse se O out ltac:(congruence) Hok HfO) as (seeds & res & E & L & L'). rewrite Els in *. exists (Z.of_nat (length seeds)). eexists. exists res. split; [exact E|].
  pose proof L as (Sr & Wr & _).
  assert (Px : forall a b c o, pixel_is O a b c o -> exists w, pixel_is im a b c w) by (intros a b c o [I _]; apply pixel_exists; [exact Wi|rewrite <- Es; exact I]).
  assert (Hle : Z.of_nat (length seeds) <= Z.of_nat (length reps)).
  { rewrite <- Els in L'. apply (few_seeds t2 se O res seeds reps Hok L'). rewrite Els.
    intros x y z o Po Ho. destruct (Px _ _ _ _ Po) as (w & Pw). assert (Hpw : P x y z w) by (apply (mark_nz _ _ _ _ _ Pw Po); exact Ho).
    destruct (Hr x y z w Pw Hpw) as (a & b & c & I & Lk). exists a, b, c. split; [exact I|]. apply eqb_linked.
    apply (linked_sym Z.eqb Z.eqb_sym se O Wo); [rewrite Es; exact HP|exact Hy|]. apply eqb_linked. apply (mark_linked _ _ _ w); assumption. }
  assert (Hn' : Z.of_nat (length seeds) < tmax t2) by lia.
  split.
  { intros x y z o Po. rewrite <- Els in L'. pose proof (used_labels t2 Z.eqb Z.eqb_sym se O res seeds Hok L' o Hn') as U. destruct (Z.eq_dec o 0) as [->|Hz]; [lia|]. enough (1 <= o <= Z.of_nat (length seeds)) by lia. apply U. split; [exact Hz|]. exists x, y, z. exact Po. }
  split; [congruence|]. split; [exact Wr|].
  assert (Nzl : forall x y z v o, pixel_is im x y z v -> pixel_is res x y z o -> (o <> 0 <-> P x y z v)).
  { intros x y z v o Pv Po. destruct (pixel_exists O x y z Wo) as (m & Pm); [rewrite Es; apply Pv|]. pose proof (label_zero_iff _ _ _ _ _ _ _ _ _ _ L' Pm Po). pose proof (mark_nz _ _ _ _ _ Pv Pm). tauto. }
  split; [exact Nzl|]. intros x y z v x' y' z' v' o o' Pv Pv' Hv Hv' Po Po'. rewrite <- (mark_linked x y z v x' y' z' Wi Pv Hv). rewrite <- eqb_linked, <- Els. rewrite <- Els in L'. split.
  - intros ->. eapply (label_linked t2 Z.eqb Z.eqb_sym se O res seeds Hok L'); [exact Hn'|exact Po|exact Po'|]. apply (Nzl _ _ _ _ _ Pv Po). exact Hv.
  - intros Lk. exact (linked_label t2 Z.eqb Z.eqb_sym se O res seeds Hok L' _ _ _ _ _ _ _ _ Lk Po Po').
Qed.
End Marked.

Section Extrema.
Context (t : ity) (se : strelt) (im : img) (Hy : symmetric_se se) (HP : planar se (sz im)).

Lemma sees_back x y z v x' y' z' v' : pixel_is im x y z v -> pixel_is im x' y' z' v' -> sees se x' y' z' x y z -> sees se x y z x' y' z'.
Proof. intros (I & _) (I' & _) S. apply (sees_sym se (sz im)); assumption. Qed.

Notation is_min := (is_min t se im).
Notation is_max := (is_max t se im).

Lemma min_adj x y z v x' y' z' v' : pixel_is im x y z v -> pixel_is im x' y' z' v' -> sees se x' y' z' x y z -> is_min x y z v -> is_min x' y' z' v' -> v = v'.
Proof.
  intros Pv Pv' S (_ & N) (_ & N'). destruct (Z.lt_trichotomy v v') as [H|[H|H]]; [|exact H|]; exfalso.
  - apply N'. apply joined_step with x y z v'; [|exact S|exact Pv'|lia]. apply joined_seed with v; [exists v; auto|exact Pv|lia].
  - apply N. apply joined_step with x' y' z' v; [|eapply sees_back; eassumption|exact Pv|lia]. apply joined_seed with v'; [exists v'; auto|exact Pv'|lia].
Qed.

Lemma min_plateau x y z v x' y' z' : pixel_is im x y z v -> pixel_is im x' y' z' v -> sees se x' y' z' x y z -> is_min x y z v -> is_min x' y' z' v.
Proof. intros Pv Pv' S (B & N). split; [exact B|]. intros D. apply N. apply joined_step with x' y' z' v; [exact D|eapply sees_back; eassumption|exact Pv|lia]. Qed.

Lemma max_adj x y z v x' y' z' v' : pixel_is im x y z v -> pixel_is im x' y' z' v' -> sees se x' y' z' x y z -> is_max x y z v -> is_max x' y' z' v' -> v = v'.
Proof.
  intros Pv Pv' S (_ & N) (_ & N'). destruct (Z.lt_trichotomy v v') as [H|[H|H]]; [|exact H|]; exfalso.
  - apply N. apply joined_step with x' y' z' v; [|eapply sees_back; eassumption|exact Pv|lia]. apply joined_seed with v'; [exists v'; auto|exact Pv'|lia].
  - apply N'. apply joined_step with x y z v'; [|exact S|exact Pv'|lia]. apply joined_seed with v; [exists v; auto|exact Pv|lia].
Qed.

Lemma max_plateau x y z v x' y' z' : pixel_is im x y z v -> pixel_is im x' y' z' v -> sees se x' y' z' x y z -> is_max x y z v -> is_max x' y' z' v.
Proof. intros Pv Pv' S (B & N). split; [exact B|]. intros D. apply N. apply joined_step with x' y' z' v; [exact D|eapply sees_back; eassumption|exact Pv|lia]. Qed.
End Extrema.

Lemma geo1_new t se im out junk : geo1_ok t se im out -> geo1_ok t se im (new_img junk im).
Proof. intros (A & B & C & D). split; [exact A|]. split; [exact B|]. split; [reflexivity|exact D]. Qed.

Lemma enough_label im fuel : enough im fuel -> label_enough im fuel.
Proof. unfold enough, label_enough. lia. Qed.

Lemma minimaLabeled_ok fuel t t2 junk dse se im out reps : geo1_ok t se im out -> enough im fuel -> symmetric_se se -> se_size se <= 1 ->
  (forall x y z v, pixel_is im x y z v -> is_min t se im x y z v -> exists a b c, In (a, b, c) reps /\ linked se eq im x y z a b c) -> Z.of_nat (length reps) < tmax t2 ->
  exists res, minimaLabeled fuel t t2 junk dse se im out = Some (Some (1, res)) /\ labels_zones se (is_min t se im) im res /\
    (forall x y z o, pixel_is res x y z o -> 0 <= o <= Z.of_nat (length reps)).
Proof.
  intros G Hf Hy Hsz Hr Hn. pose proof G as (Ht & W & E & T & I1 & I2 & HP). destruct (minima_ok fuel t junk se im (new_img junk im) (geo1_new _ _ _ _ junk G) Hf) as (O & HO & HM).
  destruct (marked_labels t se im O _ HM Hy HP (min_adj t se im Hy HP) (min_plateau t se im Hy HP) fuel t2 dse out reps W I1 I2 Hsz E (enough_label _ _ Hf) Hr Hn) as (n & w & res & EL & B & A).
  exists res. split; [|split; [exact A|exact B]]. unfold minimaLabeled, labelled_after. rewrite same_size_true by auto. cbn [negb]. rewrite HO. cbn [fuel_bind snd]. rewrite EL. reflexivity.
Qed.

Lemma maximaLabeled_ok fuel t t2 junk dse se im out reps : geo1_ok t se im out -> enough im fuel -> symmetric_se se -> se_size se <= 1 ->
  (forall x y z v, pixel_is im x y z v -> is_max t se im x y z v -> exists a b c, In (a, b, c) reps /\ linked se eq im x y z a b c) -> Z.of_nat (length reps) < tmax t2 ->
  exists res, maximaLabeled fuel t t2 junk dse se im out = Some (Some (1, res)) /\ labels_zones se (is_max t se im) im res /\
    (forall x y z o, pixel_is res x y z o -> 0 <= o <= Z.of_nat (length reps)).
Proof.
  intros G Hf Hy Hsz Hr Hn. pose proof G as (Ht & W & E & T & I1 & I2 & HP). destruct (maxima_ok fuel t junk se im (new_img junk im) (geo1_new _ _ _ _ junk G) Hf) as (O & HO & HM).
  destruct (marked_labels t se im O _ HM Hy HP (max_adj t se im Hy HP) (max_plateau t se im Hy HP) fuel t2 dse out reps W I1 I2 Hsz E (enough_label _ _ Hf) Hr Hn) as (n & w & res & EL & B & A).
  exists res. split; [|split; [exact A|exact B]]. unfold maximaLabeled, labelled_after. rewrite same_size_true by auto. cbn [negb]. rewrite HO. cbn [fuel_bind snd]. rewrite EL. reflexivity.
Qed.
