(** labelWithVolume and areaThreshold. *)
From Verif Require Export Proofs.LabelUses.

Lemma eqb_linked se im a b c a' b' c' : linked se (cmp_rel Z.eqb) im a b c a' b' c' <-> linked se eq im a b c a' b' c'.
Proof. split; apply linked_ext; intros; apply eqb_rel; assumption. Qed.

Lemma linked_value se im x' y' z' x y z v' w : pixel_is im x' y' z' v' -> linked se eq im x' y' z' x y z -> pixel_is im x y z w -> w = v'.
Proof.
  intros P' Lk. revert w. induction Lk as [u Q|a b c u a2 b2 c2 v Lk IH Q Q' S T]; intros w Pw; [eapply pixel_is_fun; eassumption|].
  pose proof (pixel_is_fun _ _ _ _ _ _ Q' Pw). pose proof (IH u Q). congruence.
Qed.

Lemma label_zero_iff t2 se im lab seeds x y z v o : labelled_by t2 se (cmp_rel Z.eqb) im lab seeds -> pixel_is im x y z v -> pixel_is lab x y z o -> (v = 0 <-> o = 0).
Proof.
  intros (Es & Wo & (Nz & _ & _ & Co & _) & Ev) P Po. destruct (Ev _ _ _ _ Po) as [[-> H]|(i & a & b & c & R & L & ->)].
  - split; [auto|]. intros _. destruct (Z.eq_dec v 0) as [|Hv]; [assumption|]. exfalso. apply (H x y z v P Hv). econstructor. exact P.
  - pose proof (rd_Some_range _ _ _ R) as B. pose proof (cyc_pos t2 i ltac:(lia)). destruct (Nz a b c (rd_In _ _ _ R)) as (w & Pw & Hw).
    apply eqb_linked in L. pose proof (linked_value _ _ _ _ _ _ _ _ _ _ Pw L P). split; [congruence|lia].
Qed.

Lemma label_component t2 se im lab seeds : label_ok se im -> labelled_by t2 (scaled se) (cmp_rel Z.eqb) im lab seeds -> Z.of_nat (length seeds) < tmax t2 ->
  forall x y z o, pixel_is lab x y z o -> o <> 0 -> exists l, component_list (scaled se) eq im x y z l /\ Z.of_nat (length l) = Z.of_nat (count_occ Z.eq_dec (pixs lab) o) /\
    forall im', sz im' = sz im -> wf_img im' -> sum_on im' l = Zsum (zone im' lab o).
Proof.
  intros Hok L' Hn x y z o P Ho. destruct (same_label_list t2 Z.eqb Z.eqb_sym se im lab seeds Hok L' x y z o Hn P Ho) as (l & (ND & Hl) & Hc & Hsum). exists l.
  split; [|auto]. split; [exact ND|]. intros; rewrite Hl. apply eqb_linked.
Qed.

Lemma few_seeds t2 se im lab seeds reps : label_ok se im -> labelled_by t2 (scaled se) (cmp_rel Z.eqb) im lab seeds -> reaches_all (scaled se) eq im reps ->
  Z.of_nat (length seeds) <= Z.of_nat (length reps).
Proof.
  intros Hok L' Hr. apply (seeds_min t2 Z.eqb Z.eqb_sym se im lab seeds Hok L' reps).
  intros x y z v P Hv. destruct (Hr x y z v P Hv) as (a & b & c & I & Lk). exists a, b, c. split; [exact I|apply eqb_linked; exact Lk].
Qed.

Lemma component_list_fun se im x y z l l' : component_list se eq im x y z l -> component_list se eq im x y z l' -> Permutation.Permutation l l'.
Proof. intros (N & H) (N' & H'). apply Permutation.NoDup_Permutation; auto. intros ((a, b), c). rewrite H, H'. reflexivity. Qed.

(** A component of too many pixels: nothing is written and 0 is returned. *)
Lemma labelWithArea_reject fuel t2 junk dse se im out reps x0 y0 z0 v0 l0 : sz im = sz out -> label_ok se im -> label_enough im fuel ->
  pixel_is im x0 y0 z0 v0 -> v0 <> 0 ->
  reaches_all (scaled se) eq im reps -> Z.of_nat (length reps) < tmax t2 ->
  component_list (scaled se) eq im x0 y0 z0 l0 -> tmax t2 <= Z.of_nat (length l0) ->
  labelWithArea fuel t2 junk dse se im out = Some (Some (0, out)).
Proof.
  intros Es Hok Hf P0 Hv0 Hr Hn Hl0 Hbig. destruct (label_call fuel t2 dse se im (new_img junk im) eq_refl Hok Hf) as (seeds & lab & E & L & L').
  assert (Er : forall a b c a' b' c', linked (scaled se) (cmp_rel Z.eqb) im a b c a' b' c' <-> linked (scaled se) eq im a b c a' b' c') by (intros; split; apply linked_ext; intros; apply eqb_rel; assumption).
  assert (Hn' : Z.of_nat (length seeds) < tmax t2).
  { pose proof (seeds_min t2 Z.eqb Z.eqb_sym se im lab seeds Hok L' reps) as M. enough (Z.of_nat (length seeds) <= Z.of_nat (length reps)) by lia. apply M.
    intros x y z v P Hv. destruct (Hr x y z v P Hv) as (a & b & c & I & Lk). exists a, b, c. split; [exact I|apply Er; exact Lk]. }
  pose proof L' as (Sl & Wl & (Nz & _ & _ & Co & _) & Ev). pose proof (label_ok_small _ _ Hok) as B53. pose proof (pixel_width _ _ _ _ _ P0) as Bw.
  pose proof Hok as (Wi & _). assert (Hlen : length (pixs lab) = length (pixs im)) by (destruct Wl as [_ Wl], Wi as [_ Wi]; rewrite Sl in Wl; lia).
  unfold labelWithArea. rewrite (same_size_true _ _ Es), E. cbn [negb fuel_bind].
  destruct (Z.eqb_spec (Z.of_nat (length seeds)) 0) as [En|_].
  { exfalso. destruct (Co _ _ _ _ P0 Hv0) as (a & b & c & I & _). destruct seeds; [contradiction|cbn in En; lia]. }
  destruct (blobs_area_ok true lab lab Wl) as (b & res & E1 & E2 & Ms & Hkeys & Hval); [rewrite Sl; lia|reflexivity|lia|]. rewrite E1. cbn [option_bind]. rewrite E2. cbn [option_bind].
  assert (Comp : forall x y z o, pixel_is lab x y z o -> o <> 0 -> exists l, component_list (scaled se) eq im x y z l /\ Z.of_nat (count_occ Z.eq_dec (pixs lab) o) = Z.of_nat (length l)).
  { intros x y z o P Ho. destruct (same_label_list t2 Z.eqb Z.eqb_sym se im lab seeds Hok L' x y z o Hn' P Ho) as (l & (ND & Hl) & Hc & _). exists l. split; [|symmetry; exact Hc].
    split; [exact ND|]. intros; rewrite Hl. apply Er. }
  assert (Nzl : forall x y z v o, pixel_is im x y z v -> pixel_is lab x y z o -> (v = 0 <-> o = 0)).
  { intros x y z v o P Po. rewrite (zero_label t2 Z.eqb Z.eqb_sym se im lab seeds L' x y z o Po). split.
    - intros -> x' y' z' v' P' Hv' Lk. apply Er in Lk. assert (K : forall x y z w, linked (scaled se) eq im x' y' z' x y z -> pixel_is im x y z w -> w = v').
      { clear - P'. intros x y z w Lk. revert w. induction Lk as [u Q|a b c u a2 b2 c2 v Lk IH Q Q' S T]; intros w Pw; [eapply pixel_is_fun; eassumption|].
        pose proof (pixel_is_fun _ _ _ _ _ _ Q' Pw). pose proof (IH u Q). congruence. }
      apply Hv'. symmetry. eapply K; eassumption.
    - intros H. destruct (Z.eq_dec v 0) as [|Hv]; [assumption|]. exfalso. apply (H x y z v P Hv). econstructor. exact P. }
  destruct (pixel_exists lab x0 y0 z0 Wl) as (o & Po); [rewrite Sl; apply P0|]. assert (Ho : o <> 0) by (intros ->; apply Hv0; apply (Nzl _ _ _ _ _ P0 Po); reflexivity).
  destruct (Comp _ _ _ _ Po Ho) as (l & Hl & El). assert (Z.of_nat (length l) = Z.of_nat (length l0)) as Q. { f_equal. apply Permutation.Permutation_length. eapply component_list_fun; eassumption. }
  assert (F : mfind o res = Some (Z.of_nat (length l))). { rewrite (Hval o) by (try (eapply rd_In; apply Po); unfold label_kept; cbn; lia). rewrite El. reflexivity. }
  apply mfind_In in F. unfold label_lookup. destruct (map_max_spec res) as (v & -> & _ & Hmax); [intros ->; destruct F|]. specialize (Hmax _ _ F). replace (v <? tmax t2) with false by lia. reflexivity.
Qed.

Lemma sum_on_perm im l l' : Permutation.Permutation l l' -> sum_on im l = sum_on im l'.
Proof. intros P. unfold sum_on. induction P; cbn [map]; rewrite ?Zsum_cons in *; lia. Qed.

Lemma zone_abs im lab v B : 0 <= B -> (forall u, In u (pixs im) -> Z.abs u <= B) -> Zsum (map Z.abs (zone im lab v)) <= B * Z.of_nat (length (pixs im)).
Proof.
  intros HB H. assert (G : forall l, (forall u, In u l -> Z.abs u <= B) -> Zsum (map Z.abs l) <= B * Z.of_nat (length l)).
  { induction l as [|a l IH]; intros Hl; [cbn; lia|]. cbn [map length]. rewrite Zsum_cons. pose proof (Hl a (or_introl eq_refl)). assert (Zsum (map Z.abs l) <= B * Z.of_nat (length l)) by (apply IH; intros; apply Hl; right; assumption). lia. }
  assert (Hz : forall u, In u (zone im lab v) -> In u (pixs im)).
  { intros u Hu. unfold zone in Hu. apply in_map_iff in Hu as ([a b] & <- & Hu). apply filter_In in Hu as (Hu & _). eapply in_combine_l; exact Hu. }
  assert (Hl : (length (zone im lab v) <= length (pixs im))%nat).
  { unfold zone. rewrite map_length. etransitivity; [|apply Nat.le_refl]. eapply Nat.le_trans; [apply filter_length_le|]. rewrite combine_length. lia. }
  etransitivity; [apply G; auto|]. nia.
Qed.

(** The pixel of a position. *)
Lemma at_position im k : wf_img im -> In k (pixs im) -> exists x y z, pixel_is im x y z k.
Proof.
  intros W H. apply In_rd in H as (i & Ri & Hi). destruct (pixel_is_k im i W Ri) as (P & _). rewrite (znth_rd 0 _ _ _ Hi) in P. eauto.
Qed.

Lemma labelWithVolume_ok fuel t2 junk dse se im labin out reps : sz im = sz out -> sz labin = sz im -> wf_img im -> wf_img out -> label_ok se labin -> label_enough labin fuel ->
  (exists x y z v, pixel_is labin x y z v /\ v <> 0) ->
  reaches_all (scaled se) eq labin reps -> Z.of_nat (length reps) < tmax t2 ->
  (forall u, In u (pixs im) -> Z.abs u <= 2 ^ 22) ->
  (forall x y z v l, pixel_is labin x y z v -> v <> 0 -> component_list (scaled se) eq labin x y z l -> tmin t2 <= sum_on im l < tmax t2) ->
  exists res, labelWithVolume fuel t2 junk dse se im labin out = Some (Some (1, res)) /\ sz res = sz im /\ wf_img res /\
    forall x y z v a, pixel_is labin x y z v -> pixel_is res x y z a ->
      (v = 0 -> a = 0) /\ (v <> 0 -> exists l, component_list (scaled se) eq labin x y z l /\ a = sum_on im l).
Proof.
  intros Es Es' Wm Wo Hok Hf (x0 & y0 & z0 & v0 & P0 & Hv0) Hr Hn Hb Ha. destruct (label_call fuel t2 dse se labin (new_img junk im) Es' Hok Hf) as (seeds & lab & E & L & L').
  assert (Hn' : Z.of_nat (length seeds) < tmax t2) by (pose proof (few_seeds t2 se labin lab seeds reps Hok L' Hr); lia).
  pose proof L' as (Sl & Wl & (Nz & _ & _ & Co & _) & Ev). pose proof (label_ok_small _ _ Hok) as B53. pose proof (pixel_width _ _ _ _ _ P0) as Bw.
  pose proof Hok as (Wi & _). assert (Hlen : length (pixs lab) = length (pixs labin)) by (destruct Wl as [_ Wl], Wi as [_ Wi]; rewrite Sl in Wl; lia).
  assert (Hlen' : length (pixs lab) = length (pixs im)) by (destruct Wl as [_ Wl], Wm as [_ Wm]; rewrite Sl, Es' in Wl; lia).
  assert (B31 : Z.of_nat (length (pixs im)) < 2 ^ 31). { destruct Hok as (_ & (_ & _ & _ & Bn) & _). rewrite <- Hlen', Hlen. destruct Wi as [_ Wi]. lia. }
  unfold labelWithVolume. rewrite (same_size_true _ _ Es), E. cbn [negb fuel_bind].
  destruct (Z.eqb_spec (Z.of_nat (length seeds)) 0) as [En|_].
  { exfalso. destruct (Co _ _ _ _ P0 Hv0) as (a & b & c & I & _). destruct seeds; [contradiction|cbn in En; lia]. }
  destruct (blobs_volume_ok true lab im Wl) as (b & res & E1 & E2 & Ms & Hkeys & Hval); [rewrite Sl; lia|exact Hlen'| |].
  { intros v _. pose proof (zone_abs im lab v (2 ^ 22) ltac:(lia) Hb). lia. }
  rewrite E1. cbn [option_bind]. rewrite E2. cbn [option_bind].
  assert (Comp : forall x y z o, pixel_is lab x y z o -> o <> 0 -> exists l, component_list (scaled se) eq labin x y z l /\ Zsum (zone im lab o) = sum_on im l).
  { intros x y z o P Ho. destruct (label_component t2 se labin lab seeds Hok L' Hn' x y z o P Ho) as (l & Cl & _ & Hs). exists l. split; [exact Cl|]. symmetry. apply Hs; auto. }
  assert (Vals : forall k v, In (k, v) res -> tmin t2 <= v < tmax t2).
  { intros k v Hin. assert (Hk : In k (mkeys res)) by (apply (in_map fst) in Hin; exact Hin). apply Hkeys in Hk as (Hk1 & Hk2).
    pose proof (msorted_In _ _ _ Ms Hin) as Em. rewrite (Hval k Hk1 Hk2) in Em. injection Em as <-.
    destruct (at_position lab k Wl Hk2) as (x & y & z & Pk). assert (Hk0 : k <> 0) by (unfold label_kept in Hk1; cbn in Hk1; lia).
    destruct (Comp _ _ _ _ Pk Hk0) as (l & Cl & ->). destruct (pixel_exists labin x y z Wi) as (w & Pw); [rewrite <- Sl; apply Pk|].
    apply (Ha _ _ _ w l Pw); [|exact Cl]. intros ->. apply Hk0. apply (label_zero_iff _ _ _ _ _ _ _ _ _ _ L' Pw Pk). reflexivity. }
  assert (Hne : res <> []).
  { destruct (pixel_exists lab x0 y0 z0 Wl) as (o & Po); [rewrite Sl; apply P0|]. assert (Ho : o <> 0) by (intros ->; apply Hv0; apply (label_zero_iff _ _ _ _ _ _ _ _ _ _ L' P0 Po); reflexivity).
    assert (In o (mkeys res)) as Hin by (apply Hkeys; split; [unfold label_kept; cbn; lia|eapply rd_In; apply Po]). destruct res; [contradiction|congruence]. }
  rewrite (lookup_ok t2 res lab out Wl Wo); [|congruence|exact Ms|exact Hne|intros k v H; apply (Vals k v H)].
  eexists. split; [reflexivity|]. split; [cbn; congruence|]. split.
  { split; cbn [sz pixs]; [destruct Wo; assumption|]. rewrite map_length. destruct Wo as [_ Wo], Wm as [_ Wm]. rewrite <- Es in Wo |- *. lia. }
  intros x y z v a P [Ia Pa]. cbn [sz pixs] in Ia, Pa. destruct (pixel_exists lab x y z Wl) as (o & Po); [rewrite Sl; apply P|].
  pose proof Po as [_ Ro]. assert (Ed : sz lab = sz out) by congruence. rewrite <- Ed, rd_map, Ro in Pa. cbn in Pa. injection Pa as <-.
  pose proof (label_zero_iff _ _ _ _ _ _ _ _ _ _ L' P Po) as Z0. split.
  - intros Hv. assert (o = 0) as -> by tauto. rewrite mfind_None_keys; [reflexivity|]. intros H. apply Hkeys in H as (H & _). discriminate.
  - intros Hv. assert (Ho : o <> 0) by tauto. destruct (Comp x y z o Po Ho) as (l & Cl & Hc).
    exists l. split; [exact Cl|]. rewrite (Hval o) by (try (eapply rd_In; exact Ro); unfold label_kept; cbn; lia). rewrite Hc. apply wrap_id. specialize (Ha x y z v l P Hv Cl). unfold inty. lia.
Qed.

(** ** isBinary *)
Lemma binary_scan_spec l : forall h, msorted h -> (length h <= 2)%nat -> (forall k v, In (k, v) h -> 0 < v) ->
  match binary_scan l h with
  | Some h' => msorted h' /\ (length h' <= 2)%nat /\ (forall k v, In (k, v) h' -> 0 < v) /\ forall k, In k (mkeys h') <-> In k (mkeys h) \/ In k l
  | None => forall c, ~ (forall k, In k (mkeys h) \/ In k l -> k = 0 \/ k = c)
  end.
Proof.
  induction l as [|a l IH]; intros h Ms Hl Hpos; cbn [binary_scan].
  { split; [exact Ms|]. split; [exact Hl|]. split; [exact Hpos|]. intros k. cbn. tauto. }
  set (h' := mput a (mget 0 a h + 1) h). assert (Ms' : msorted h') by (apply msorted_mput; exact Ms).
  assert (Hk : forall k, In k (mkeys h') <-> k = a \/ In k (mkeys h)) by (intros k; apply mkeys_mput).
  assert (Hpos' : forall k v, In (k, v) h' -> 0 < v).
  { intros k v H. apply (msorted_In _ _ _ Ms') in H. unfold h' in H. rewrite mfind_mput in H by exact Ms. destruct (k =? a).
    - injection H as <-. unfold mget. destruct (mfind a h) as [u|] eqn:E; [|lia]. apply mfind_In in E. specialize (Hpos a u E). lia.
    - apply mfind_In in H. eapply Hpos; exact H. }
  destruct (Z.of_nat (length h') >? 2) eqn:E.
  - intros c H. assert (NoDup (mkeys h')) as ND. { clear - Ms'. unfold msorted in Ms'. induction Ms' as [|k m So IH F]; constructor; [|exact IH]. intros Hc. rewrite Forall_forall in F. specialize (F k Hc). lia. }
    assert (incl (mkeys h') [0; c]) as Hi. { intros k Hin. apply Hk in Hin as [->|Hin]; [destruct (H a); [right; left; reflexivity|subst; cbn; auto|subst; cbn; auto]|destruct (H k); [left; exact Hin|subst; cbn; auto|subst; cbn; auto]]. }
    pose proof (NoDup_incl_length ND Hi) as LE. unfold mkeys in LE. rewrite map_length in LE. cbn [length] in LE. lia.
  - specialize (IH h' Ms' ltac:(lia) Hpos'). destruct (binary_scan l h') as [h2|].
    + destruct IH as (A & B & C & D). split; [exact A|]. split; [exact B|]. split; [exact C|]. intros k. rewrite D, Hk. cbn [In]. intuition congruence.
    + intros c H. apply (IH c). intros k Hin. apply H. rewrite Hk in Hin. cbn [In]. intuition congruence.
Qed.

Lemma isBinary_iff im : isBinary im = true <-> exists c, two_valued im c.
Proof.
  unfold isBinary. pose proof (binary_scan_spec (pixs im) [] msorted_nil ltac:(cbn; lia)) as H.
  destruct (binary_scan (pixs im) []) as [h|].
  - destruct H as (Ms & Hl & Hpos & Hk); [intros ? ? []|]. split.
    + intros Hb. apply andb_prop in Hb as (B1 & B2). assert (H0 : In 0 (mkeys h)).
      { unfold mget in B1. destruct (mfind 0 h) eqn:E; [eapply mfind_key; exact E|discriminate]. }
      destruct h as [|[k1 v1] [|[k2 v2] [|e h]]]; cbn [length] in B2; try discriminate; [|cbn [length] in Hl; lia].
      unfold msorted in Ms. cbn in Ms, H0. inversion Ms as [|? ? _ F]; subst. inversion F as [|? ? Lt _]; subst. cbn in Hk.
      exists (if k1 =? 0 then k2 else k1). split; [destruct (Z.eqb_spec k1 0); lia|]. split; [destruct (Hk 0) as [A _]; destruct A as [[]|A]; auto|].
      split; [destruct (Hk (if k1 =? 0 then k2 else k1)) as [A _]; destruct A as [[]|A]; auto; destruct (k1 =? 0); auto|].
      intros v Hv. destruct (Hk v) as [_ A]. specialize (A (or_intror Hv)). destruct (Z.eqb_spec k1 0); intuition congruence.
    + intros (c & Hc & H0 & H1 & H2). assert (A0 : In 0 (mkeys h)) by (apply Hk; auto). assert (A1 : In c (mkeys h)) by (apply Hk; auto).
      apply andb_true_intro. split.
      * unfold mget. destruct (mfind 0 h) as [v|] eqn:E; [apply mfind_In in E; specialize (Hpos _ _ E); lia|]. exfalso. apply In_mkeys_mfind in A0. congruence.
      * assert (2 <= length (mkeys h))%nat. { change 2%nat with (length [0; c]). apply NoDup_incl_length; [constructor; [intros [|[]]; congruence|constructor; [intros []|constructor]]|]. intros k [<-|[<-|[]]]; assumption. }
        unfold mkeys in *. rewrite map_length in *. lia.
  - split; [discriminate|]. intros (c & _ & _ & _ & H2). exfalso. apply (H ltac:(intros ? ? [])) with c. intros k [[]|Hk]. apply H2. exact Hk.
Qed.

(** ** areaThreshold *)
Lemma area_lut_find t2 binary gt th areas : msorted areas -> msorted (area_lut t2 binary gt th areas) /\ forall k,
  mfind k (area_lut t2 binary gt th areas) = match mfind k areas with Some a => Some (if area_keep gt th a then if binary then tmax t2 else k else 0) | None => None end.
Proof.
  unfold area_lut. intros Ms. set (f := fun lut (e : Z * Z) => mput (fst e) (if (gt && (snd e <? th)) || (negb gt && (snd e >? th)) then 0 else if binary then tmax t2 else fst e) lut).
  assert (G : forall l acc, msorted l -> msorted acc -> msorted (fold_left f l acc) /\ forall k, mfind k (fold_left f l acc) =
     match mfind k l with Some a => Some (if area_keep gt th a then if binary then tmax t2 else k else 0) | None => mfind k acc end).
  { induction l as [|[k0 a0] l IH]; intros acc Hs Ha; cbn [fold_left]; [split; [exact Ha|reflexivity]|].
    assert (Hs' : msorted l) by (unfold msorted in *; cbn in Hs; inversion Hs; assumption). destruct (IH (f acc (k0, a0)) Hs') as (A & B); [apply msorted_mput; exact Ha|].
    split; [exact A|]. intros k. rewrite B. unfold f at 1. cbn [fst snd]. rewrite mfind_mput by exact Ha.
    assert (Hnk : mfind k0 l = None). { apply mfind_None_keys. intros Hin. unfold msorted in Hs. cbn in Hs. inversion Hs as [|? ? _ F]; subst. rewrite Forall_forall in F. specialize (F k0 Hin). lia. }
    cbn [mfind]. destruct (Z.eqb_spec k k0) as [->|Hne].
    - rewrite Hnk, ?Z.eqb_refl. f_equal. unfold area_keep. destruct gt; cbn [andb orb negb]; destruct (Z.ltb_spec a0 th); repeat match goal with |- context [if ?c then _ else _] => destruct c eqn:? end; lia.
    - repeat match goal with |- context [if ?c then _ else _] => destruct c eqn:?; try lia end; reflexivity. }
  destruct (G areas [] Ms msorted_nil) as (A & B). split; [exact A|]. intros k. rewrite B. destruct (mfind k areas); reflexivity.
Qed.

Lemma no_race {A} sched (m : zmap A) l : (forall i j, 0 <= i < Z.of_nat (length l) -> 0 <= j < Z.of_nat (length l) -> sched i = sched j) \/ (forall v, In v l -> mfind v m <> None) -> map_race sched m l = false.
Proof.
  intros H. unfold map_race. apply not_true_is_false. intros E. apply existsb_exists in E as (i & Hi & E). apply zseq_In in Hi.
  destruct (mfind (znth 0 l i) m) eqn:Em; [discriminate|]. apply existsb_exists in E as (j & Hj & E). apply zseq_In in Hj.
  destruct H as [H|H]; [rewrite (H i j Hi Hj), Z.eqb_refl in E; discriminate|]. apply (H (znth 0 l i)); [|exact Em]. eapply rd_In. apply rd_znth. exact Hi.
Qed.

Lemma race {A} sched (m : zmap A) l i j : (exists v, In v l /\ mfind v m = None) -> 0 <= i < Z.of_nat (length l) -> 0 <= j < Z.of_nat (length l) -> sched i <> sched j -> map_race sched m l = true.
Proof.
  intros (v & Hv & Em) Hi Hj Hn. apply In_rd in Hv as (k & Hk & Hr). unfold map_race. apply existsb_exists. exists k. split; [apply zseq_In; exact Hk|].
  rewrite (znth_rd 0 _ _ _ Hr), Em. apply existsb_exists. destruct (Z.eq_dec (sched k) (sched i)) as [Ek|Ek].
  - exists j. split; [apply zseq_In; exact Hj|]. apply negb_true_iff. apply Z.eqb_neq. congruence.
  - exists i. split; [apply zseq_In; exact Hi|]. apply negb_true_iff. apply Z.eqb_neq. congruence.
Qed.

Lemma areaThreshold_binary fuel t2 junk dse sched th gt im out reps c : sz im = sz out -> wf_img out -> label_ok dse im -> label_enough im fuel ->
  two_valued im c -> reaches_all (scaled dse) eq im reps -> Z.of_nat (length reps) < tmax t2 ->
  (forall i j, 0 <= i < Z.of_nat (length (pixs im)) -> 0 <= j < Z.of_nat (length (pixs im)) -> sched i = sched j) ->
  exists res, areaThreshold fuel t2 junk dse sched th gt im out = Some (Some (1, res)) /\ sz res = sz im /\ wf_img res /\
    forall x y z v a, pixel_is im x y z v -> pixel_is res x y z a ->
      (v = 0 -> a = 0) /\ (v <> 0 -> exists l, component_list (scaled dse) eq im x y z l /\ a = if area_keep gt th (Z.of_nat (length l)) then tmax t2 else 0).
Proof.
  intros Es Wo Hok Hf Tv Hr Hn Hsch. unfold areaThreshold. rewrite (same_size_true _ _ Es). cbn [negb]. rewrite (proj2 (isBinary_iff im) (ex_intro _ c Tv)).
  destruct (label_call fuel t2 dse dse im (new_img junk out) Es Hok Hf) as (seeds & lab & E & L & L'). rewrite E. cbn [fuel_bind].
  assert (Hn' : Z.of_nat (length seeds) < tmax t2) by (pose proof (few_seeds t2 dse im lab seeds reps Hok L' Hr); lia).
  pose proof L' as (Sl & Wl & _). pose proof (label_ok_small _ _ Hok) as B53. pose proof Hok as (Wi & _).
  assert (Hlen : length (pixs lab) = length (pixs im)) by (destruct Wl as [_ Wl], Wi as [_ Wi]; rewrite Sl in Wl; lia).
  destruct Tv as (Hc & T0 & T1 & T2). destruct (at_position im 0 Wi T0) as (x0 & y0 & z0 & P0). pose proof (pixel_width _ _ _ _ _ P0) as Bw.
  destruct (blobs_area_ok true lab lab Wl) as (b & res & E1 & E2 & Ms & Hkeys & Hval); [rewrite Sl; lia|reflexivity|lia|]. rewrite E1. cbn [option_bind]. rewrite E2. cbn [option_bind].
  destruct (area_lut_find t2 true gt th res Ms) as (Ml & Hlut). rewrite no_race by (left; rewrite Hlen; exact Hsch).
  eexists. split; [reflexivity|]. split; [cbn; congruence|]. split.
  { split; cbn [sz pixs]; [destruct Wo; assumption|]. rewrite map_length. destruct Wo as [_ Wo], Wi as [_ Wi]. rewrite <- Es in Wo |- *. lia. }
  intros x y z v a P [Ia Pa]. cbn [sz pixs] in Ia, Pa. destruct (pixel_exists lab x y z Wl) as (o & Po); [rewrite Sl; apply P|].
  pose proof Po as [_ Ro]. assert (Ed : sz lab = sz out) by congruence. rewrite <- Ed, rd_map, Ro in Pa. cbn in Pa. injection Pa as <-.
  pose proof (label_zero_iff _ _ _ _ _ _ _ _ _ _ L' P Po) as Z0. unfold mget. rewrite Hlut. split.
  - intros Hv. assert (o = 0) as -> by tauto. rewrite mfind_None_keys; [reflexivity|]. intros H. apply Hkeys in H as (H & _). discriminate.
  - intros Hv. assert (Ho : o <> 0) by tauto. destruct (label_component t2 dse im lab seeds Hok L' Hn' x y z o Po Ho) as (l & Cl & Hcnt & _).
    exists l. split; [exact Cl|]. rewrite (Hval o) by (try (eapply rd_In; exact Ro); unfold label_kept; cbn; lia). rewrite Hcnt. reflexivity.
Qed.

(** On a binary image the map is always modified by a thread while others read it. *)
Lemma areaThreshold_race fuel t2 junk dse sched th gt im out c i j : sz im = sz out -> label_ok dse im -> label_enough im fuel -> two_valued im c ->
  0 <= i < Z.of_nat (length (pixs im)) -> 0 <= j < Z.of_nat (length (pixs im)) -> sched i <> sched j ->
  areaThreshold fuel t2 junk dse sched th gt im out = None.
Proof.
  intros Es Hok Hf Tv Hi Hj Hs. unfold areaThreshold. rewrite (same_size_true _ _ Es). cbn [negb]. rewrite (proj2 (isBinary_iff im) (ex_intro _ c Tv)).
  destruct (label_call fuel t2 dse dse im (new_img junk out) Es Hok Hf) as (seeds & lab & E & L & L'). rewrite E. cbn [fuel_bind].
  pose proof L' as (Sl & Wl & _). pose proof (label_ok_small _ _ Hok) as B53. pose proof Hok as (Wi & _).
  assert (Hlen : length (pixs lab) = length (pixs im)) by (destruct Wl as [_ Wl], Wi as [_ Wi]; rewrite Sl in Wl; lia).
  destruct Tv as (Hc & T0 & T1 & T2). destruct (at_position im 0 Wi T0) as (x0 & y0 & z0 & P0). pose proof (pixel_width _ _ _ _ _ P0) as Bw.
  destruct (blobs_area_ok true lab lab Wl) as (b & res & E1 & E2 & Ms & Hkeys & Hval); [rewrite Sl; lia|reflexivity|lia|]. rewrite E1. cbn [option_bind]. rewrite E2. cbn [option_bind].
  destruct (area_lut_find t2 true gt th res Ms) as (Ml & Hlut). rewrite (race _ _ _ i j); [reflexivity| |rewrite Hlen; exact Hi|rewrite Hlen; exact Hj|exact Hs].
  exists 0. destruct (pixel_exists lab x0 y0 z0 Wl) as (o & Po); [rewrite Sl; apply P0|]. assert (o = 0) as -> by (apply (label_zero_iff _ _ _ _ _ _ _ _ _ _ L' P0 Po); reflexivity).
  split; [eapply rd_In; apply Po|]. rewrite Hlut, mfind_None_keys; [reflexivity|]. intros H. apply Hkeys in H as (H & _). discriminate.
Qed.

Lemma areaThreshold_labels fuel t2 junk dse sched th gt im out : sz im = sz out -> wf_img im -> wf_img out -> typed_img t2 im -> (forall c, ~ two_valued im c) ->
  0 < dw (sz im) -> Z.of_nat (length (pixs im)) <= 2 ^ 53 ->
  (forall i j, 0 <= i < Z.of_nat (length (pixs im)) -> 0 <= j < Z.of_nat (length (pixs im)) -> sched i = sched j) \/ ~ In 0 (pixs im) ->
  exists res, areaThreshold fuel t2 junk dse sched th gt im out = Some (Some (1, res)) /\ sz res = sz im /\ wf_img res /\
    forall x y z v a, pixel_is im x y z v -> pixel_is res x y z a -> a = if area_keep gt th (Z.of_nat (count_occ Z.eq_dec (pixs im) v)) then v else 0.
Proof.
  intros Es Wi Wo Ty Nb Bw B53 Hsch. unfold areaThreshold. rewrite (same_size_true _ _ Es). cbn [negb].
  assert (isBinary im = false) as -> by (apply not_true_is_false; intros H; apply isBinary_iff in H as (c & H); exact (Nb c H)). cbn [fuel_bind].
  assert (Em : map (wrap t2) (pixs im) = pixs im). { rewrite <- (map_id (pixs im)) at 2. apply map_ext_in. intros v Hv. unfold typed_img in Ty. rewrite Forall_forall in Ty. apply wrap_id. apply Ty. exact Hv. }
  rewrite Em, <- Es. assert (Ei : Img (sz im) (pixs im) = im) by (destruct im; reflexivity). rewrite Ei.
  destruct (blobs_area_ok true im im Wi Bw eq_refl B53) as (b & res & E1 & E2 & Ms & Hkeys & Hval). rewrite E1. cbn [option_bind]. rewrite E2. cbn [option_bind].
  destruct (area_lut_find t2 false gt th res Ms) as (Ml & Hlut). rewrite no_race.
  2:{ destruct Hsch as [H|H]; [left; exact H|right]. intros v Hv. rewrite Hlut, Hval by (try assumption; unfold label_kept; cbn; assert (v <> 0) by (intros ->; contradiction); lia). discriminate. }
  eexists. split; [reflexivity|]. split; [reflexivity|]. split; [split; cbn [sz pixs]; [apply Wi|rewrite map_length; apply Wi]|].
  intros x y z v a [I P] [Ia Pa]. cbn [sz pixs] in Ia, Pa. rewrite rd_map, P in Pa. cbn in Pa. injection Pa as <-. unfold mget. rewrite Hlut.
  destruct (Z.eq_dec v 0) as [->|Hv].
  - rewrite mfind_None_keys; [destruct (area_keep _ _ _); reflexivity|]. intros H. apply Hkeys in H as (H & _). discriminate.
  - rewrite Hval by (try (eapply rd_In; exact P); unfold label_kept; cbn; lia). reflexivity.
Qed.
