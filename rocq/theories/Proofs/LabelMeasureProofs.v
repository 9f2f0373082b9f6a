(** labelWithMaxima and labelWithMean. *)
From Verif Require Export Spec.LabelMeasureSpec Proofs.LabelUses2.
Local Open Scope Z_scope.

(** What the functions do first. *)
Lemma label_start fuel t2 junk dse se im labin reps x0 y0 z0 v0 : sz labin = sz im -> label_ok se labin -> label_enough labin fuel ->
  pixel_is labin x0 y0 z0 v0 -> v0 <> 0 -> reaches_all (scaled se) eq labin reps -> Z.of_nat (length reps) < tmax t2 ->
  exists n w lab, label fuel t2 dse se false labin (new_img junk im) = Some (Some (n, w, lab)) /\ n <> 0 /\ sz lab = sz labin /\ wf_img lab /\
    (forall x y z v o, pixel_is labin x y z v -> pixel_is lab x y z o -> (v = 0 <-> o = 0)) /\
    (forall x y z x' y' z' o, pixel_is lab x y z o -> o <> 0 -> (pixel_is lab x' y' z' o <-> linked (scaled se) eq labin x y z x' y' z')) /\
    (forall o, In o (pixs lab) -> 0 <= o < tmax t2) /\
    (forall x y z o, pixel_is lab x y z o -> o <> 0 -> exists l, component_list (scaled se) eq labin x y z l /\ Z.of_nat (length l) = Z.of_nat (count_occ Z.eq_dec (pixs lab) o) /\
      forall im', sz im' = sz labin -> wf_img im' -> sum_on im' l = Zsum (zone im' lab o)).
Proof.
  intros Es Hok Hf P0 Hv0 Hr Hn. destruct (label_call fuel t2 dse se labin (new_img junk im) Es Hok Hf) as (seeds & lab & E & _ & L').
  assert (Hn' : Z.of_nat (length seeds) < tmax t2) by (pose proof (few_seeds t2 se labin lab seeds reps Hok L' Hr); lia).
  pose proof L' as (Sl & Wl & (Nz & _ & _ & Co & _) & Ev). do 3 eexists. split; [exact E|]. split.
  { intros En. destruct (Co _ _ _ _ P0 Hv0) as (a & b & c & I & _). destruct seeds; [contradiction|cbn in En; lia]. }
  split; [exact Sl|]. split; [exact Wl|]. split; [intros x y z v o P Po; eapply label_zero_iff; eassumption|]. split; [|split].
  - intros x y z x' y' z' o P Ho. split.
    + intros P'. apply eqb_linked. eapply (label_linked t2 Z.eqb Z.eqb_sym se labin lab seeds); eassumption.
    + intros Lk. assert (I : inside (sz labin) x' y' z') by (destruct Lk as [v Q|a b c u a' b' c' v _ _ Q' _ _]; [apply Q|apply Q']).
      rewrite <- Sl in I. destruct (pixel_exists lab x' y' z' Wl I) as (o' & P'). apply eqb_linked in Lk.
      assert (o = o') as <- by (eapply (linked_label t2 Z.eqb Z.eqb_sym se labin lab seeds); eassumption). exact P'.
  - intros o Ho. destruct (at_position lab o Wl Ho) as (x & y & z & P). pose proof (tmax_big t2). destruct (Ev _ _ _ _ P) as [(-> & _)|(i & a & b & c & R & _ & ->)]; [lia|].
    pose proof (rd_Some_range _ _ _ R). pose proof (cyc_pos t2 i ltac:(lia)). lia.
  - intros x y z o P Ho. exact (label_component t2 se labin lab seeds Hok L' Hn' x y z o P Ho).
Qed.

(** The values of a zone, by coordinates. *)
Lemma zone_pixels im lab o u : wf_img im -> wf_img lab -> sz lab = sz im -> (In u (zone im lab o) <-> exists x y z, pixel_is lab x y z o /\ pixel_is im x y z u).
Proof.
  intros W Wl Es. assert (HL : length (pixs lab) = length (pixs im)) by (destruct W as [_ W], Wl as [_ Wl]; rewrite Es in Wl; lia).
  rewrite zone_eq by exact HL. rewrite in_map_iff. split.
  - intros (k & <- & Hk). apply filter_In in Hk as (Hk & Hz). apply zseq_In in Hk. destruct (pixel_is_k lab k Wl Hk) as (P & Ek). replace (znth 0 (pixs lab) k) with o in P by lia.
    do 3 eexists. split; [exact P|]. split; [rewrite <- Es; apply P|]. rewrite <- Es, Ek. apply rd_znth. lia.
  - intros (x & y & z & (I & R) & (I' & R')). exists (voxel_offset (dw (sz im)) (dh (sz im)) x y z). split; [apply znth_rd; exact R'|].
    rewrite Es in R. apply filter_In. split; [apply zseq_In; apply rd_Some_range in R; lia|]. rewrite (znth_rd 0 _ _ _ R). lia.
Qed.

(** *** labelWithMaxima *)

Lemma blob_max_ok t seqs im : (forall k, In k (run_pixels seqs) -> 0 <= k < Z.of_nat (length (pixs im))) -> Forall (fun r => 0 < snd r) seqs ->
  blob_max t seqs im = Some (fmax (map (znth 0 (pixs im)) (run_pixels seqs)) (tmin t)).
Proof.
  intros HR HF. unfold blob_max. set (step := fun s v => if v >? s then v else s).
  rewrite (process_blob_fold _ (fun s v => Some (step s v))); [|exact HR|exact HF|].
  - rewrite (fold_opt_total _ step) by reflexivity. reflexivity.
  - intros s a n _. rewrite (fold_opt_total _ step) by reflexivity. reflexivity.
Qed.

Lemma blobs_max_ok t onz lab im : wf_img lab -> 0 < dw (sz lab) -> length (pixs lab) = length (pixs im) -> typed_img t im ->
  exists b res, computeBlobs onz lab = Some b /\ process_blobs (blob_max t) b im = Some res /\ StronglySorted Z.lt (mkeys res) /\
    (forall v, In v (mkeys res) <-> label_kept onz v = true /\ In v (pixs lab)) /\
    (forall v, label_kept onz v = true -> In v (pixs lab) -> exists hi, mfind v res = Some hi /\ In hi (zone im lab v) /\ forall u, In u (zone im lab v) -> u <= hi).
Proof.
  intros Hwf Hw HL HT. destruct (process_blobs_ok (blob_max t) (fun l => fmax l (tmin t)) (fun _ => True) onz lab im Hwf Hw HL) as (b & res & E1 & E2 & E3 & E4 & E5).
  - intros seqs HR HF _ _. apply blob_max_ok; assumption.
  - auto.
  - exists b, res. split; [exact E1|]. split; [exact E2|]. split; [exact E3|]. split; [exact E4|]. intros v K1 K2. eexists. split; [apply E5; assumption|].
    unfold typed_img in HT. rewrite Forall_forall in HT. assert (HZ : forall u, In u (zone im lab v) -> inty t u).
    { intros u Hu. apply HT. unfold zone in Hu. apply in_map_iff in Hu as ([x y] & <- & Hu). apply filter_In in Hu as [Hu _]. apply in_combine_l in Hu. exact Hu. }
    assert (HN : exists u, In u (zone im lab v)).
    { pose proof (zone_length im lab v HL). apply (count_occ_In Z.eq_dec) in K2. destruct (zone im lab v) as [|u l]; [cbn in *; lia|]. exists u. left. reflexivity. }
    destruct (fmax_spec (zone im lab v) (tmin t)) as ([Q|Q] & H2 & H3); [|auto]. split; [|exact H3]. destruct HN as (u & Hu). pose proof (HZ u Hu). pose proof (H3 u Hu).
    unfold inty in *. replace (fmax (zone im lab v) (tmin t)) with u by lia. exact Hu.
Qed.

Lemma maxima_lookup_ok t1 t2 m lab out : wf_img lab -> wf_img out -> sz lab = sz out -> msorted m -> m <> [] -> (forall o, In o (pixs lab) -> 0 <= o < tmax t2) ->
  (forall k v, In (k, v) m -> In k (pixs lab) /\ tmin t2 <= v < tmax t2) ->
  maxima_lookup t1 t2 m lab out = Some (1, Img (sz out) (map (fun v => match mfind v m with Some x => x | None => 0 end) (pixs lab))).
Proof.
  intros Wl Wo Es Ms Hne Hl Hm.
  assert (Gen : applyLookup_gen t2 m 0 lab out = Some (1, Img (sz out) (map (fun v => match mfind v m with Some x => x | None => 0 end) (pixs lab)))).
  { destruct (applyLookup_gen_ok t2 m 0 lab out Wl Wo Es Hne) as [A _]. rewrite A by (intros k v H; apply Hm in H; lia). do 3 f_equal. apply map_ext. intros v.
    destruct (mfind v m) as [x|] eqn:F; [|reflexivity]. apply mfind_In in F. apply Hm in F. apply wrap_id. unfold inty. lia. }
  assert (Small : t2 = UINT8 \/ t2 = UINT16 -> applyLookup_small t2 m 0 lab out = Some (1, Img (sz out) (map (fun v => match mfind v m with Some x => x | None => 0 end) (pixs lab)))).
  { intros Hs. assert (T0 : tmin t2 = 0) by (destruct Hs as [-> | ->]; reflexivity). rewrite applyLookup_small_ok; try assumption; [reflexivity| | |].
    - unfold typed_img. apply Forall_forall. intros o Ho. apply Hl in Ho. unfold inty. lia.
    - intros k Hk. apply in_map_iff in Hk as ((k', v) & <- & Hk). apply Hm in Hk as (Hk & _). apply Hl in Hk. unfold inty. cbn. lia.
    - intros v Hv. left. apply Hl in Hv. lia. }
  unfold maxima_lookup. destruct t1, t2; lazymatch goal with |- applyLookup_gen _ _ _ _ _ = _ => exact Gen | _ => apply Small; tauto end.
Qed.

Section Maxima.
Variables (fuel : nat) (t1 t2 : ity) (junk : Z -> Z) (dse se : strelt) (im labin out : img) (reps : list (Z * Z * Z)).
Hypothesis Es : sz im = sz out.
Hypothesis Es' : sz labin = sz im.
Hypothesis Wm : wf_img im.
Hypothesis Ty : typed_img t1 im.
Hypothesis Hok : label_ok se labin.
Hypothesis Hf : label_enough labin fuel.
Hypothesis Hr : reaches_all (scaled se) eq labin reps.
Hypothesis Hn : Z.of_nat (length reps) < tmax t2.

Lemma labelWithMaxima_start x0 y0 z0 v0 : pixel_is labin x0 y0 z0 v0 -> v0 <> 0 ->
  exists lab res, labelWithMaxima fuel t1 t2 junk dse se im labin out =
      match map_max res with
      | None => Some (Some (to_size (-100), out))
      | Some maxV =>
          if negb (maxV <? tmax t2) then Some (Some (0, out)) else
          option_bind (maxima_lookup t1 t2 res lab out) (fun r => Some (Some (if fst r =? 1 then 1 else to_size (-100), snd r)))
      end /\ sz lab = sz im /\ wf_img lab /\ msorted res /\ res <> [] /\
    (forall o, In o (pixs lab) -> 0 <= o < tmax t2) /\
    (forall x y z v o, pixel_is labin x y z v -> pixel_is lab x y z o -> (v = 0 <-> o = 0)) /\
    mfind 0 res = None /\ (forall k a, In (k, a) res -> In k (pixs lab)) /\
    (forall x y z o, pixel_is lab x y z o -> o <> 0 -> exists a, mfind o res = Some a /\ component_max (scaled se) labin im x y z a).
Proof using Es Es' Wm Ty Hok Hf Hr Hn.
  intros P0 Hv0. destruct (label_start fuel t2 junk dse se im labin reps x0 y0 z0 v0 Es' Hok Hf P0 Hv0 Hr Hn) as (n & w & lab & E & Hn0 & Sl & Wl & Z0 & Lk & Rg & _).
  assert (Hlen : length (pixs lab) = length (pixs im)) by (destruct Wl as [_ Wl], Wm as [_ Wm']; rewrite Sl, Es' in Wl; lia).
  destruct (blobs_max_ok t1 true lab im Wl) as (b & res & E1 & E2 & Ms & Hkeys & Hval); [rewrite Sl; eapply pixel_width; exact P0|exact Hlen|exact Ty|].
  exists lab, res. unfold labelWithMaxima. rewrite (same_size_true _ _ Es), E. cbn [negb fuel_bind]. replace (n =? 0) with false by lia. rewrite E1. cbn [option_bind]. rewrite E2. cbn [option_bind].
  split; [reflexivity|]. split; [congruence|]. split; [exact Wl|]. split; [exact Ms|]. split.
  { destruct (pixel_exists lab x0 y0 z0 Wl) as (o & Po); [rewrite Sl; apply P0|]. assert (Ho : o <> 0) by (intros ->; apply Hv0; apply (Z0 _ _ _ _ _ P0 Po); reflexivity).
    assert (In o (mkeys res)) as Hin by (apply Hkeys; split; [unfold label_kept; cbn; lia|eapply rd_In; apply Po]). intros ->. destruct Hin. }
  split; [exact Rg|]. split; [exact Z0|]. split; [|split].
  - apply mfind_None_keys. intros H. apply Hkeys in H as (H & _). discriminate.
  - intros k a H. apply (in_map fst) in H. apply Hkeys in H. apply H.
  - intros x y z o P Ho. destruct (Hval o) as (a & F & I & M); [unfold label_kept; cbn; lia|eapply rd_In; apply P|]. exists a. split; [exact F|]. split.
    + apply zone_pixels in I as (x' & y' & z' & P' & Q'); try assumption; [|congruence]. exists x', y', z'. split; [|exact Q']. apply (Lk x y z x' y' z' o P Ho). exact P'.
    + intros x' y' z' u L Q. apply M. apply zone_pixels; try assumption; [congruence|]. exists x', y', z'. split; [|exact Q]. apply (Lk x y z x' y' z' o P Ho). exact L.
Qed.

Lemma labelWithMaxima_ok : wf_img out -> (exists x y z v, pixel_is labin x y z v /\ v <> 0) ->
  (forall x y z v u, pixel_is labin x y z v -> v <> 0 -> pixel_is im x y z u -> tmin t2 <= u < tmax t2) ->
  exists res, labelWithMaxima fuel t1 t2 junk dse se im labin out = Some (Some (1, res)) /\ sz res = sz im /\ wf_img res /\
    forall x y z v a, pixel_is labin x y z v -> pixel_is res x y z a ->
      (v = 0 -> a = 0) /\ (v <> 0 -> component_max (scaled se) labin im x y z a).
Proof using Es Es' Wm Ty Hok Hf Hr Hn.
  intros Wo (x0 & y0 & z0 & v0 & P0 & Hv0) Ha. destruct (labelWithMaxima_start x0 y0 z0 v0 P0 Hv0) as (lab & res & E & Sl & Wl & Ms & Hne & Rg & Z0 & F0 & Ks & Cm).
  assert (Wi : wf_img labin) by apply Hok.
  assert (Vals : forall k a, In (k, a) res -> In k (pixs lab) /\ tmin t2 <= a < tmax t2).
  { intros k a H. pose proof (Ks k a H) as Hk. split; [exact Hk|]. assert (F : mfind k res = Some a) by (apply msorted_In; assumption). assert (k <> 0) as K0 by congruence.
    destruct (at_position lab k Wl Hk) as (x & y & z & P). destruct (Cm x y z k P K0) as (a' & F' & ((x' & y' & z' & L & Q) & _)). assert (a' = a) as -> by congruence.
    destruct (pixel_exists labin x y z Wi) as (v & Pv); [rewrite Es', <- Sl; apply P|]. assert (Hv : v <> 0) by (intros ->; apply K0; apply (Z0 _ _ _ _ _ Pv P); reflexivity).
    assert (I : inside (sz labin) x' y' z') by (rewrite Es'; apply Q). destruct (pixel_exists labin x' y' z' Wi I) as (v' & Pv'). pose proof (linked_value _ _ _ _ _ _ _ _ _ _ Pv L Pv'). apply (Ha x' y' z' v' a Pv'); [congruence|exact Q]. }
  rewrite E. destruct (map_max_spec res Hne) as (mx & -> & (k & Hk) & _). pose proof (Vals k mx Hk). replace (mx <? tmax t2) with true by lia. cbn [negb].
  rewrite maxima_lookup_ok; try assumption; [|congruence]. cbn [option_bind fst snd Z.eqb Pos.eqb]. eexists. split; [reflexivity|]. split; [cbn; congruence|]. split.
  { split; cbn [sz pixs]; [apply Wo|]. rewrite map_length. destruct Wl as [_ Wl']. rewrite Wl', Sl, Es. reflexivity. }
  intros x y z v a P [Ia Pa]. cbn [sz pixs] in Ia, Pa. destruct (pixel_exists lab x y z Wl) as (o & Po); [rewrite Sl, <- Es'; apply P|].
  pose proof Po as [_ Ro]. assert (Ed : sz lab = sz out) by congruence. rewrite <- Ed, rd_map, Ro in Pa. cbn in Pa. injection Pa as <-. pose proof (Z0 _ _ _ _ _ P Po). split.
  - intros Hv. assert (o = 0) as -> by tauto. rewrite F0. reflexivity.
  - intros Hv. assert (Ho : o <> 0) by tauto. destruct (Cm x y z o Po Ho) as (a & -> & C). exact C.
Qed.

(** A value as large as the maximum of the type of the labels, on a labelled pixel. *)
Lemma labelWithMaxima_reject x y z v u : pixel_is labin x y z v -> v <> 0 -> pixel_is im x y z u -> tmax t2 <= u ->
  labelWithMaxima fuel t1 t2 junk dse se im labin out = Some (Some (0, out)).
Proof using Es Es' Wm Ty Hok Hf Hr Hn.
  intros P0 Hv0 Q Hu. destruct (labelWithMaxima_start x y z v P0 Hv0) as (lab & res & E & Sl & Wl & Ms & Hne & Rg & Z0 & F0 & Ks & Cm).
  rewrite E. destruct (map_max_spec res Hne) as (mx & -> & _ & M). destruct (pixel_exists lab x y z Wl) as (o & Po); [rewrite Sl; apply Q|].
  assert (Ho : o <> 0) by (intros ->; apply Hv0; apply (Z0 _ _ _ _ _ P0 Po); reflexivity). destruct (Cm x y z o Po Ho) as (a & F & (_ & C)).
  specialize (C x y z u (linked_self _ _ _ _ _ _ _ P0) Q). apply mfind_In in F. specialize (M o a F). replace (mx <? tmax t2) with false by lia. reflexivity.
Qed.
End Maxima.
