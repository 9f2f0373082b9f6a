(** The labelling functions and their uses. *)
From Verif Require Export Proofs.LabelTheorems Proofs.MeasureProofs2.

Lemma linked_ext se (R R' : Z -> Z -> Prop) im x y z x' y' z' : (forall a b, R a b -> R' a b) -> linked se R im x y z x' y' z' -> linked se R' im x y z x' y' z'.
Proof. intros H L. induction L as [v P|a b c u a' b' c' v L IH P P' S Q]; [econstructor; exact P|]. econstructor; eauto. Qed.

Lemma labelled_ext t se (R R' : Z -> Z -> Prop) im out seeds : (forall a b, R a b <-> R' a b) -> labelled_by t se R im out seeds -> labelled_by t se R' im out seeds.
Proof.
  intros H (Es & Wo & (Nz & So & Pw & Co & Fi) & Ev).
  assert (E : forall x y z x' y' z', linked se R im x y z x' y' z' <-> linked se R' im x y z x' y' z') by (intros; split; apply linked_ext; intros; apply H; assumption).
  split; [exact Es|]. split; [exact Wo|]. split; [split; [exact Nz|split; [exact So|split; [|split]]]|].
  - intros i j x y z x' y' z' A B C. apply E in C. eapply Pw; eassumption.
  - intros x y z v A B. destruct (Co x y z v A B) as (a & b & c & I & L). exists a, b, c. split; [exact I|apply E; exact L].
  - intros x y z x' y' z' v A B. apply E in B. apply Fi; assumption.
  - intros x y z o P. destruct (Ev x y z o P) as [[E0 N]|(i & a & b & c & A & B & C)]; [left; split; [exact E0|]; intros x' y' z' v A B C; apply E in C; exact (N _ _ _ _ A B C)|].
    right. exists i, a, b, c. split; [exact A|]. split; [apply E; exact B|exact C].
Qed.

Lemma label_exec_ok fuel t2 cmp se im : (forall a b, cmp a b = cmp b a) -> label_ok se im -> label_enough im fuel ->
  exists seeds out, label_exec fuel t2 cmp se im = Some (Some (Z.of_nat (length seeds), out)) /\ labelled_by t2 (scaled se) (cmp_rel cmp) im out seeds.
Proof.
  intros Hc (Hw & Hs & Hp & HP & Hy) Hf. destruct (label_exec_image cmp Hc (scaled se) im Hw Hs Hp HP Hy fuel t2 Hf) as (seeds & st & E & Re & L).
  exists seeds, (Img (sz im) (ls_out st)). unfold label_exec. change (label_se se) with (scaled se). rewrite E. cbn [fuel_bind]. rewrite Re. auto.
Qed.

Lemma eqb_rel a b : cmp_rel Z.eqb a b <-> a = b.
Proof. unfold cmp_rel. apply Z.eqb_eq. Qed.

Lemma label_call fuel t2 dse se im out : sz im = sz out -> label_ok se im -> label_enough im fuel ->
  exists seeds res, label fuel t2 dse se false im out = Some (Some (Z.of_nat (length seeds), Z.of_nat (length seeds) >? tmax t2, res)) /\
    labelled_by t2 (scaled se) eq im res seeds /\ labelled_by t2 (scaled se) (cmp_rel Z.eqb) im res seeds.
Proof.
  intros Es Ho Hf. destruct (label_exec_ok fuel t2 Z.eqb se im Z.eqb_sym Ho Hf) as (seeds & res & E & L). exists seeds, res. unfold label.
  rewrite (same_size_true _ _ Es). cbn [negb]. rewrite E. cbn [fuel_bind label_result fst snd]. split; [reflexivity|]. split; [eapply labelled_ext; [exact eqb_rel|exact L]|exact L].
Qed.

Lemma lambda_sym l a b : lambda_cmp l a b = lambda_cmp l b a.
Proof. unfold lambda_cmp. destruct (a >? b) eqn:A, (b >? a) eqn:B; try reflexivity; lia. Qed.

Lemma lambda_rel l a b : cmp_rel (lambda_cmp l) a b <-> Z.abs (a - b) <= l.
Proof. unfold cmp_rel, lambda_cmp. destruct (a >? b) eqn:A; lia. Qed.

(** Everything a caller of label is told, from the seeds. *)
Section Facts.
Context (t2 : ity) (cmp : Z -> Z -> bool) (Hcmp : forall a b, cmp a b = cmp b a) (se : strelt) (im out : img) (seeds : list (Z * Z * Z)).
Context (Hok : label_ok se im) (HL : labelled_by t2 (scaled se) (cmp_rel cmp) im out seeds).
Notation lk := (linked (scaled se) (cmp_rel cmp) im).
Notation n := (Z.of_nat (length seeds)).

Lemma zero_label x y z o : pixel_is out x y z o -> (o = 0 <-> forall x' y' z' v, pixel_is im x' y' z' v -> v <> 0 -> ~ lk x' y' z' x y z).
Proof.
  intros P. pose proof HL as (Es & Wo & (Nz & _) & Ev). destruct (Ev _ _ _ _ P) as [[E H]|(i & a & b & c & R & L & E)]; [split; auto|].
  pose proof (rd_Some_range _ _ _ R) as B. pose proof (cyc_pos t2 i ltac:(lia)). split; [lia|]. intros H'. exfalso.
  destruct (Nz a b c (rd_In _ _ _ R)) as (v & Pv & Hv). exact (H' a b c v Pv Hv L).
Qed.

Lemma linked_label x y z x' y' z' o o' : lk x y z x' y' z' -> pixel_is out x y z o -> pixel_is out x' y' z' o' -> o = o'.
Proof. destruct Hok as (Hw & Hs & Hp & HP & Hy). eapply linked_same_label; eassumption. Qed.

Lemma label_linked x y z x' y' z' o : n < tmax t2 -> pixel_is out x y z o -> pixel_is out x' y' z' o -> o <> 0 -> lk x y z x' y' z'.
Proof. destruct Hok as (Hw & Hs & Hp & HP & Hy). eapply same_label_linked; eassumption. Qed.

Lemma used_labels k : n < tmax t2 -> (1 <= k <= n <-> k <> 0 /\ exists x y z, pixel_is out x y z k).
Proof. destruct Hok as (Hw & Hs & Hp & HP & Hy). eapply labels_used; eassumption. Qed.

Lemma seeds_min reps : reaches_all (scaled se) (cmp_rel cmp) im reps -> n <= Z.of_nat (length reps).
Proof.
  destruct Hok as (Hw & Hs & Hp & HP & Hy). intros Hr. enough (length seeds <= length reps)%nat by lia. eapply covering_count; try eassumption.
  intros x y z v P Hv. destruct (Hr x y z v P Hv) as (a & b & c & I & L). exists (a, b, c). auto.
Qed.

Lemma seeds_reach : reaches_all (scaled se) (cmp_rel cmp) im seeds.
Proof. destruct HL as (_ & _ & (_ & _ & _ & Co & _) & _). exact Co. Qed.

(** The pixels holding a label are those of the component. *)
Lemma same_label_list x y z o : n < tmax t2 -> pixel_is out x y z o -> o <> 0 ->
  exists l, component_list (scaled se) (cmp_rel cmp) im x y z l /\ Z.of_nat (length l) = Z.of_nat (count_occ Z.eq_dec (pixs out) o) /\
    forall im', sz im' = sz im -> wf_img im' -> sum_on im' l = Zsum (zone im' out o).
Proof.
  intros Hn P Ho. pose proof HL as (Es & Wo & _). set (pos := filter (fun i => znth 0 (pixs out) i =? o) (zseq (Z.of_nat (length (pixs out))))).
  assert (Hpos : forall k, In k pos <-> 0 <= k < Z.of_nat (length (pixs out)) /\ znth 0 (pixs out) k = o).
  { intros k. unfold pos. rewrite filter_In, zseq_In. lia. }
  assert (Hk : forall k, In k pos -> pixel_is out (kx (sz out) k) (ky (sz out) k) (kz (sz out) k) o /\ voxel_offset (dw (sz out)) (dh (sz out)) (kx (sz out) k) (ky (sz out) k) (kz (sz out) k) = k).
  { intros k H. apply Hpos in H as (H & <-). apply pixel_is_k; assumption. }
  assert (NDp : NoDup pos). { apply NoDup_filter. unfold zseq. apply FinFun.Injective_map_NoDup; [intros a b; lia|apply seq_NoDup]. }
  exists (map (fun k => (kx (sz out) k, ky (sz out) k, kz (sz out) k)) pos). split; [split|split].
  - apply (NoDup_map_inv (scan_pos (sz out))). rewrite map_map.
    rewrite (map_ext_in _ (fun k => k)), map_id; [exact NDp|]. intros k H. cbn [scan_pos]. apply Hk. exact H.
  - intros x' y' z'. rewrite in_map_iff. split.
    + intros (k & E & H). injection E as <- <- <-. eapply label_linked; [exact Hn|exact P|apply Hk; exact H|exact Ho].
    + intros L. assert (I : inside (sz out) x' y' z'). { rewrite Es. clear - L. induction L as [v Q|a b c u a' b' c' v L IH Q Q' S T]; [apply Q|apply Q']. }
      destruct (pixel_exists out x' y' z' Wo I) as (o' & P'). assert (o' = o) as -> by (symmetry; eapply linked_label; eassumption).
      destruct (pixel_is_off _ _ _ _ _ P') as (R & V). exists (voxel_offset (dw (sz out)) (dh (sz out)) x' y' z'). split; [|apply Hpos; auto].
      destruct (Hk _ (proj2 (Hpos _) (conj R V))) as ((I' & _) & E'). destruct (voxel_inj (sz out) _ _ _ _ _ _ I' I E') as (-> & -> & ->). reflexivity.
  - rewrite map_length. unfold pos. rewrite count_positions. reflexivity.
  - intros im' S' W'. unfold sum_on. rewrite map_map. rewrite zone_eq.
    2:{ destruct W' as [_ W'], Wo as [_ Wo]. rewrite S' in W'. rewrite Es in Wo. lia. }
    f_equal. apply map_ext_in. intros k H. cbn [scan_pos]. rewrite S', <- Es. f_equal. apply Hk. exact H.
Qed.
End Facts.

Lemma map_max_spec (m : zmap Z) : m <> [] -> exists v, map_max m = Some v /\ (exists k, In (k, v) m) /\ forall k w, In (k, w) m -> w <= v.
Proof.
  destruct m as [|[k0 v0] r]; [congruence|]. intros _. cbn [map_max snd]. eexists. split; [reflexivity|].
  assert (G : forall l acc, acc <= fold_left (fun m (p : Z * Z) => if m <? snd p then snd p else m) l acc /\
    (forall k w, In (k, w) l -> w <= fold_left (fun m (p : Z * Z) => if m <? snd p then snd p else m) l acc) /\
    (fold_left (fun m (p : Z * Z) => if m <? snd p then snd p else m) l acc = acc \/ exists k, In (k, fold_left (fun m (p : Z * Z) => if m <? snd p then snd p else m) l acc) l)).
  { induction l as [|[k v] l IH]; intros acc; cbn [fold_left snd]; [split; [lia|split; [intros ? ? []|auto]]|].
    destruct (IH (if acc <? v then v else acc)) as (A & B & C). assert (acc <= (if acc <? v then v else acc) /\ v <= (if acc <? v then v else acc)) as (D1 & D2) by (destruct (acc <? v) eqn:E; lia).
    split; [lia|]. split.
    - intros k' w [E|H]; [injection E as <- <-; lia|eapply B; exact H].
    - destruct C as [C|(k' & C)]; [|right; exists k'; right; exact C]. rewrite C. destruct (acc <? v); [right; exists k; left; reflexivity|left; reflexivity]. }
  destruct (G r v0) as (A & B & C). split.
  - destruct C as [->|(k & C)]; [exists k0; left; reflexivity|exists k; right; exact C].
  - intros k w [E|H]; [injection E as <- <-; exact A|eapply B; exact H].
Qed.

Lemma sz_new junk im : sz (new_img junk im) = sz im.
Proof. reflexivity. Qed.

Lemma label_ok_small se im : label_ok se im -> Z.of_nat (length (pixs im)) <= 2 ^ 53.
Proof. intros ((_ & Wl) & (Bw & Bh & Bd & Bn) & _). lia. Qed.

Lemma pixel_width im x y z v : pixel_is im x y z v -> 0 < dw (sz im).
Proof. intros (I & _). unfold inside in I. lia. Qed.

(** Common part of labelWithArea and labelWithVolume. *)
Lemma lookup_ok t2 m lab out : wf_img lab -> wf_img out -> sz lab = sz out -> msorted m -> m <> [] -> (forall k v, In (k, v) m -> v < tmax t2) ->
  label_lookup t2 m lab out = Some (Some (1, Img (sz out) (map (fun v => match mfind v m with Some x => wrap t2 x | None => 0 end) (pixs lab)))).
Proof.
  intros Wl Wo Es Ms Hne Hm. unfold label_lookup. destruct (map_max_spec m Hne) as (v & -> & (k & Hk) & _). pose proof (Hm k v Hk).
  replace (v <? tmax t2) with true by lia. cbn [negb].
  destruct (applyLookup_gen_ok t2 m 0 lab out Wl Wo Es Hne) as [A _]. rewrite A; [reflexivity|]. intros k' v' H'. specialize (Hm k' v' H'). lia.
Qed.

Lemma pos_wrap t v : 0 <= v < tmax t -> wrap t v = v.
Proof. intros H. apply wrap_id. unfold inty. pose proof (tmax_big t). destruct t; cbn in *; lia. Qed.

Lemma labelWithArea_ok fuel t2 junk dse se im out reps : sz im = sz out -> wf_img out -> label_ok se im -> label_enough im fuel ->
  (exists x y z v, pixel_is im x y z v /\ v <> 0) ->
  reaches_all (scaled se) eq im reps -> Z.of_nat (length reps) < tmax t2 ->
  (forall x y z v l, pixel_is im x y z v -> v <> 0 -> component_list (scaled se) eq im x y z l -> Z.of_nat (length l) < tmax t2) ->
  exists res, labelWithArea fuel t2 junk dse se im out = Some (Some (1, res)) /\ sz res = sz im /\ wf_img res /\
    forall x y z v a, pixel_is im x y z v -> pixel_is res x y z a ->
      (v = 0 -> a = 0) /\ (v <> 0 -> exists l, component_list (scaled se) eq im x y z l /\ a = Z.of_nat (length l)).
Proof.
  intros Es Wo Hok Hf (x0 & y0 & z0 & v0 & P0 & Hv0) Hr Hn Ha. destruct (label_call fuel t2 dse se im (new_img junk im) eq_refl Hok Hf) as (seeds & lab & E & L & L').
  assert (Er : forall a b c a' b' c', linked (scaled se) (cmp_rel Z.eqb) im a b c a' b' c' <-> linked (scaled se) eq im a b c a' b' c') by (intros; split; apply linked_ext; intros; apply eqb_rel; assumption).
  assert (Hn' : Z.of_nat (length seeds) < tmax t2).
  { pose proof (seeds_min t2 Z.eqb Z.eqb_sym se im lab seeds Hok L' reps) as M. enough (Z.of_nat (length seeds) <= Z.of_nat (length reps)) by lia. apply M.
    intros x y z v P Hv. destruct (Hr x y z v P Hv) as (a & b & c & I & Lk). exists a, b, c. split; [exact I|apply Er; exact Lk]. }
  pose proof L' as (Sl & Wl & (Nz & _ & _ & Co & _) & Ev). pose proof (label_ok_small _ _ Hok) as B53. pose proof (pixel_width _ _ _ _ _ P0) as Bw.
  pose proof Hok as (Wi & _). assert (Hlen : length (pixs lab) = length (pixs im)) by (destruct Wl as [_ Wl], Wi as [_ Wi]; rewrite Sl in Wl; lia).
  unfold labelWithArea. rewrite (same_size_true _ _ Es), E. cbn [negb fuel_bind].
  destruct (Z.eqb_spec (Z.of_nat (length seeds)) 0) as [En|_].
  { exfalso. destruct (Co _ _ _ _ P0 Hv0) as (a & b & c & I & _). destruct seeds; [contradiction|cbn in En; lia]. }
  destruct (blobs_area_ok true lab lab Wl) as (b & res & E1 & E2 & Ms & Hkeys & Hval); [rewrite Sl; lia|reflexivity|lia|]. rewrite E1. cbn [option_bind]. rewrite E2. cbn [option_bind].
  assert (Comp : forall x y z o, pixel_is lab x y z o -> o <> 0 -> exists l, component_list (scaled se) eq im x y z l /\ Z.of_nat (count_occ Z.eq_dec (pixs lab) o) = Z.of_nat (length l)).
  { intros x y z o P Ho. destruct (same_label_list t2 Z.eqb Z.eqb_sym se im lab seeds Hok L' x y z o Hn' P Ho) as (l & (ND & Hl) & Hc & _). exists l. split; [|symmetry; exact Hc].
    split; [exact ND|]. intros; rewrite Hl. apply Er. }
  assert (Nzl : forall x y z v o, pixel_is im x y z v -> pixel_is lab x y z o -> (v = 0 <-> o = 0)).
  { intros x y z v o P Po. rewrite (zero_label t2 Z.eqb Z.eqb_sym se im lab seeds L' x y z o Po). split.
    - intros -> x' y' z' v' P' Hv' Lk. apply Er in Lk. assert (K : forall x y z w, linked (scaled se) eq im x' y' z' x y z -> pixel_is im x y z w -> w = v').
      { clear - P'. intros x y z w Lk. revert w. induction Lk as [u Q|a b c u a2 b2 c2 v Lk IH Q Q' S T]; intros w Pw; [eapply pixel_is_fun; eassumption|].
        pose proof (pixel_is_fun _ _ _ _ _ _ Q' Pw). pose proof (IH u Q). congruence. }
      apply Hv'. symmetry. eapply K; eassumption.
    - intros H. destruct (Z.eq_dec v 0) as [|Hv]; [assumption|]. exfalso. apply (H x y z v P Hv). econstructor. exact P. }
  assert (Vals : forall k v, In (k, v) res -> v < tmax t2).
  { intros k v Hin. assert (Hk : In k (mkeys res)) by (apply (in_map fst) in Hin; exact Hin). apply Hkeys in Hk as (Hk1 & Hk2).
    pose proof (msorted_In _ _ _ Ms Hin) as Em. rewrite (Hval k Hk1 Hk2) in Em. injection Em as <-.
    apply In_rd in Hk2 as (i & Ri & Hi). assert (Rl : 0 <= i < Z.of_nat (length (pixs lab))) by lia. destruct (pixel_is_k lab i Wl Rl) as (Pk & _).
    rewrite (znth_rd 0 _ _ _ Hi) in Pk. assert (Hk0 : k <> 0) by (unfold label_kept in Hk1; cbn in Hk1; lia).
    destruct (Comp _ _ _ _ Pk Hk0) as (l & Cl & ->). destruct (pixel_exists im (kx (sz lab) i) (ky (sz lab) i) (kz (sz lab) i) Wi) as (w & Pw); [rewrite <- Sl; apply Pk|].
    apply (Ha _ _ _ w l Pw); [|exact Cl]. intros ->. apply Hk0. apply (Nzl _ _ _ _ _ Pw Pk). reflexivity. }
  assert (Hne : res <> []).
  { destruct (pixel_exists lab x0 y0 z0 Wl) as (o & Po); [rewrite Sl; apply P0|]. assert (Ho : o <> 0) by (intros ->; apply Hv0; apply (Nzl _ _ _ _ _ P0 Po); reflexivity).
    assert (In o (mkeys res)) as Hin by (apply Hkeys; split; [unfold label_kept; cbn; lia|eapply rd_In; apply Po]). destruct res; [contradiction|congruence]. }
  rewrite (lookup_ok t2 res lab out Wl Wo) by (auto; congruence).
  eexists. split; [reflexivity|]. split; [cbn; congruence|]. split.
  { split; cbn [sz pixs]; [destruct Wo; assumption|]. rewrite map_length. destruct Wo as [_ Wo], Wi as [_ Wi]. rewrite <- Es in Wo |- *. lia. }
  intros x y z v a P [Ia Pa]. cbn [sz pixs] in Ia, Pa. destruct (pixel_exists lab x y z Wl) as (o & Po); [rewrite Sl; apply P|].
  pose proof Po as [_ Ro]. assert (Ed : sz lab = sz out) by congruence. rewrite <- Ed, rd_map, Ro in Pa. cbn in Pa. injection Pa as <-. split.
  - intros Hv. assert (o = 0) as -> by (apply (Nzl _ _ _ _ _ P Po); exact Hv). rewrite mfind_None_keys; [reflexivity|]. intros H. apply Hkeys in H as (H & _). discriminate.
  - intros Hv. assert (Ho : o <> 0) by (intros ->; apply Hv; apply (Nzl _ _ _ _ _ P Po); reflexivity). destruct (Comp x y z o Po Ho) as (l & Cl & Hc).
    exists l. split; [exact Cl|]. rewrite (Hval o) by (try (eapply rd_In; exact Ro); unfold label_kept; cbn; lia). rewrite Hc. apply pos_wrap. specialize (Ha x y z v l P Hv Cl). lia.
Qed.
