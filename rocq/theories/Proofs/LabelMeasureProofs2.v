(** labelWithMean. *)
From Verif Require Export Proofs.LabelMeasureProofs.
From Coq Require Import Lqa.
Local Open Scope Z_scope.

Lemma Qless_spec a b : Qless a b = true <-> (a < b)%Q.
Proof. unfold Qless. rewrite negb_true_iff. split; intros H; [apply Qnot_le_lt; intros G; apply Qle_bool_iff in G; congruence|]. destruct (Qle_bool b a) eqn:E; [|reflexivity]. apply Qle_bool_iff in E. exfalso. apply (Qlt_not_le _ _ H E). Qed.

Lemma Qless_false a b : Qless a b = false <-> (b <= a)%Q.
Proof. unfold Qless. rewrite negb_false_iff. apply Qle_bool_iff. Qed.

Lemma qmap_max_spec (m : zmap Q) : m <> [] -> exists q, qmap_max m = Some q /\ (exists k, In (k, q) m) /\ forall k w, In (k, w) m -> (w <= q)%Q.
Proof.
  destruct m as [|[k0 v0] r]; [congruence|]. intros _. cbn [qmap_max snd]. eexists. split; [reflexivity|].
  assert (G : forall l acc, (acc <= fold_left (fun m (p : Z * Q) => if Qless m (snd p) then snd p else m) l acc)%Q /\
    (forall k w, In (k, w) l -> (w <= fold_left (fun m (p : Z * Q) => if Qless m (snd p) then snd p else m) l acc)%Q) /\
    (fold_left (fun m (p : Z * Q) => if Qless m (snd p) then snd p else m) l acc = acc \/ exists k, In (k, fold_left (fun m (p : Z * Q) => if Qless m (snd p) then snd p else m) l acc) l)).
  { induction l as [|[k v] l IH]; intros acc; cbn [fold_left snd]; [split; [apply Qle_refl|split; [intros ? ? []|auto]]|].
    destruct (IH (if Qless acc v then v else acc)) as (A & B & C). assert ((acc <= (if Qless acc v then v else acc))%Q /\ (v <= (if Qless acc v then v else acc))%Q) as (D1 & D2).
    { destruct (Qless acc v) eqn:E; [apply Qless_spec in E; split; [apply Qlt_le_weak; exact E|apply Qle_refl]|apply Qless_false in E; split; [apply Qle_refl|exact E]]. }
    split; [eapply Qle_trans; eassumption|]. split.
    - intros k' w [E|H]; [injection E as <- <-; eapply Qle_trans; eassumption|eapply B; exact H].
    - destruct C as [C|(k' & C)]; [|right; exists k'; right; exact C]. rewrite C. destruct (Qless acc v); [right; exists k; left; reflexivity|left; reflexivity]. }
  destruct (G r v0) as (A & B & C). split.
  - destruct C as [->|(k & C)]; [exists k0; left; reflexivity|exists k; right; exact C].
  - intros k w [E|H]; [injection E as <- <-; exact A|eapply B; exact H].
Qed.

(** The quotient of a sum by a number of pixels. *)
Lemma quotient_lt s n c : 0 < n -> ((inject_Z s / inject_Z n < inject_Z c)%Q <-> s < c * n).
Proof.
  intros Hn. destruct n as [|p|p]; try lia. unfold Qlt, Qdiv, Qmult, Qinv, inject_Z. cbn [Qnum Qden]. rewrite !Z.mul_1_r, ?Pos.mul_1_l. cbn [Qden Qnum]. lia.
Qed.
Lemma quotient_le s n c : 0 < n -> ((inject_Z c <= inject_Z s / inject_Z n)%Q <-> c * n <= s).
Proof.
  intros Hn. destruct n as [|p|p]; try lia. unfold Qle, Qdiv, Qmult, Qinv, inject_Z. cbn [Qnum Qden]. rewrite !Z.mul_1_r, ?Pos.mul_1_l. cbn [Qden Qnum]. lia.
Qed.
Lemma quotient_upper s n c : 0 < n -> s <= c * n -> (inject_Z s / inject_Z n <= inject_Z c)%Q.
Proof.
  intros Hn H. destruct n as [|p|p]; try lia. unfold Qle, Qdiv, Qmult, Qinv, inject_Z. cbn [Qnum Qden]. rewrite !Z.mul_1_r, ?Pos.mul_1_l. cbn [Qden Qnum]. lia.
Qed.
Lemma quotient_trunc s n : 0 < n -> Qtrunc (inject_Z s / inject_Z n) = Z.quot s n.
Proof.
  intros Hn. destruct n as [|p|p]; try lia. unfold Qtrunc, Qdiv, Qmult, Qinv, inject_Z. cbn [Qnum Qden]. rewrite Z.mul_1_r, Pos.mul_1_l. reflexivity.
Qed.

Lemma Zsum_abs l : 0 <= Zsum (map Z.abs l).
Proof. apply Zsum_nonneg. apply Forall_forall. intros x Hx. apply in_map_iff in Hx as (y & <- & _). lia. Qed.

Lemma fold_mean l : forall n s, 0 <= n -> n + Z.of_nat (length l) <= 2 ^ 53 -> Z.abs s + Zsum (map Z.abs l) <= 2 ^ 53 ->
  fold_opt mean_step l (n, s) = Some (n + Z.of_nat (length l), s + Zsum l).
Proof.
  induction l as [|a l IH]; intros n s H0 H1 H2; cbn [fold_opt map length] in *; [do 2 f_equal; cbn; lia|]. rewrite Zsum_cons in H2 |- *. pose proof (Zsum_abs l).
  unfold mean_step at 1, dadd. cbn [fst snd]. replace (Z.abs (n + 1) <=? 2 ^ 53) with true by lia. cbn [option_bind]. replace (Z.abs (s + a) <=? 2 ^ 53) with true by lia. cbn [option_bind].
  rewrite IH by lia. do 2 f_equal; lia.
Qed.

Definition quotient (l : list Z) : Q := if Z.of_nat (length l) =? 0 then 0%Q else (inject_Z (Zsum l) / inject_Z (Z.of_nat (length l)))%Q.

Lemma blobs_mean_ok lab im : wf_img lab -> 0 < dw (sz lab) -> length (pixs lab) = length (pixs im) -> Z.of_nat (length (pixs im)) <= 2 ^ 53 ->
  (forall v, In v (pixs lab) -> Zsum (map Z.abs (zone im lab v)) <= 2 ^ 53) ->
  exists b res, computeBlobs true lab = Some b /\ process_blobs blob_mean b im = Some res /\ StronglySorted Z.lt (mkeys res) /\
    (forall v, In v (mkeys res) <-> label_kept true v = true /\ In v (pixs lab)) /\
    (forall v, label_kept true v = true -> In v (pixs lab) -> mfind v res = Some (quotient (zone im lab v))).
Proof.
  intros Hwf Hw HL HN HB. apply (process_blobs_ok blob_mean quotient (fun l => Z.of_nat (length l) <= 2 ^ 53 /\ Zsum (map Z.abs l) <= 2 ^ 53)); auto.
  - intros seqs HR HF _ (Hl & Hs). unfold blob_mean. rewrite (process_blob_fold _ mean_step) by auto. rewrite fold_mean by (cbn [Z.abs]; lia). reflexivity.
  - intros v Hv. split; [|apply HB; exact Hv]. rewrite zone_length by exact HL. pose proof (count_occ_bound Z.eq_dec v (pixs lab)). lia.
Qed.

Lemma applyLookup_mean_ok t1 (m : zmap Q) lab out : wf_img lab -> wf_img out -> sz lab = sz out -> m <> [] ->
  (forall k q, In (k, q) m -> (q <= inject_Z (tmax t1))%Q) ->
  applyLookup_mean t1 m lab out = Some (1, Img (sz out) (map (fun v => match mfind v m with Some q => wrap t1 (Qtrunc q) | None => 0 end) (pixs lab))).
Proof.
  intros Hi Ho Es HN HB. unfold applyLookup_mean. destruct (qmap_max_spec m HN) as (mx & -> & (k & Hk) & _).
  destruct (Qless (inject_Z (tmax t1)) mx) eqn:E. { apply Qless_spec in E. exfalso. apply (Qlt_not_le _ _ E). eapply HB. exact Hk. }
  assert (L : length (pixs lab) = length (pixs out)) by (destruct Hi as [_ Hi], Ho as [_ Ho]; rewrite Es in Hi; lia).
  rewrite wf_count by exact Hi.
  rewrite (fold_opt_ext _ (fun px i => wr px i ((fun v => match mfind v m with Some q => wrap t1 (Qtrunc q) | None => 0 end) (znth 0 (pixs lab) i)))).
  2: { intros b a Ha. apply zseq_In in Ha. rewrite (rd_znth 0) by exact Ha. reflexivity. }
  rewrite (write_map (fun i => (fun v => match mfind v m with Some q => wrap t1 (Qtrunc q) | None => 0 end) (znth 0 (pixs lab) i))) by lia.
  cbn [option_map]. do 3 f_equal. apply (map_pixels (fun v => match mfind v m with Some q => wrap t1 (Qtrunc q) | None => 0 end)).
Qed.

Section Mean.
Variables (fuel : nat) (t1 t2 : ity) (junk : Z -> Z) (dse se : strelt) (im labin out : img) (reps : list (Z * Z * Z)).
Hypothesis Es : sz im = sz out.
Hypothesis Es' : sz labin = sz im.
Hypothesis Wm : wf_img im.
Hypothesis Bd : forall u, In u (pixs im) -> Z.abs u <= 2 ^ 22.
Hypothesis Hok : label_ok se labin.
Hypothesis Hf : label_enough labin fuel.
Hypothesis Hr : reaches_all (scaled se) eq labin reps.
Hypothesis Hn : Z.of_nat (length reps) < tmax t2.

Lemma labelWithMean_start x0 y0 z0 v0 : pixel_is labin x0 y0 z0 v0 -> v0 <> 0 ->
  exists lab res, labelWithMean fuel t1 t2 junk dse se im labin out =
      match qmap_max res with
      | None => Some (Some (to_size (-100), out))
      | Some maxV =>
          if negb (Qless maxV (inject_Z (tmax t2))) then Some (Some (0, out)) else
          option_bind (applyLookup_mean t1 res lab out) (fun r => Some (Some (if fst r =? 1 then 1 else to_size (-100), snd r)))
      end /\ sz lab = sz im /\ wf_img lab /\ msorted res /\ res <> [] /\
    (forall x y z v o, pixel_is labin x y z v -> pixel_is lab x y z o -> (v = 0 <-> o = 0)) /\
    mfind 0 res = None /\ (forall k a, In (k, a) res -> In k (pixs lab)) /\
    (forall x y z o, pixel_is lab x y z o -> o <> 0 -> exists l, component_list (scaled se) eq labin x y z l /\ 0 < Z.of_nat (length l) /\
       mfind o res = Some (inject_Z (sum_on im l) / inject_Z (Z.of_nat (length l)))%Q).
Proof using Es Es' Wm Bd Hok Hf Hr Hn.
  intros P0 Hv0. destruct (label_start fuel t2 junk dse se im labin reps x0 y0 z0 v0 Es' Hok Hf P0 Hv0 Hr Hn) as (n & w & lab & E & Hn0 & Sl & Wl & Z0 & _ & _ & Comp).
  assert (Hlen : length (pixs lab) = length (pixs im)) by (destruct Wl as [_ Wl], Wm as [_ Wm']; rewrite Sl, Es' in Wl; lia).
  assert (B31 : Z.of_nat (length (pixs im)) < 2 ^ 31). { destruct Hok as (Wi & (_ & _ & _ & Bn) & _). rewrite <- Hlen. destruct Wl as [_ Wl]. rewrite Wl, Sl. exact Bn. }
  destruct (blobs_mean_ok lab im Wl) as (b & res & E1 & E2 & Ms & Hkeys & Hval); [rewrite Sl; eapply pixel_width; exact P0|exact Hlen|lia| |].
  { intros v _. pose proof (zone_abs im lab v (2 ^ 22) ltac:(lia) Bd). lia. }
  exists lab, res. unfold labelWithMean. rewrite (same_size_true _ _ Es), E. cbn [negb fuel_bind]. replace (n =? 0) with false by lia. rewrite E1. cbn [option_bind]. rewrite E2. cbn [option_bind].
  split; [reflexivity|]. split; [congruence|]. split; [exact Wl|]. split; [exact Ms|]. split.
  { destruct (pixel_exists lab x0 y0 z0 Wl) as (o & Po); [rewrite Sl; apply P0|]. assert (Ho : o <> 0) by (intros ->; apply Hv0; apply (Z0 _ _ _ _ _ P0 Po); reflexivity).
    assert (In o (mkeys res)) as Hin by (apply Hkeys; split; [unfold label_kept; cbn; lia|eapply rd_In; apply Po]). intros ->. destruct Hin. }
  split; [exact Z0|]. split; [|split].
  - apply mfind_None_keys. intros H. apply Hkeys in H as (H & _). discriminate.
  - intros k a H. apply (in_map fst) in H. apply Hkeys in H. apply H.
  - intros x y z o P Ho. destruct (Comp x y z o P Ho) as (l & Cl & Hc & Hs). exists l. split; [exact Cl|]. assert (In o (pixs lab)) as Hin by (eapply rd_In; apply P).
    pose proof Hin as Hp. apply (count_occ_In Z.eq_dec) in Hp. split; [lia|]. rewrite (Hval o) by (first [exact Hin|unfold label_kept; cbn; lia]). unfold quotient.
    rewrite zone_length by exact Hlen. replace (Z.of_nat (count_occ Z.eq_dec (pixs lab) o) =? 0) with false by lia. rewrite <- Hc, <- (Hs im) by (first [exact Wm|congruence]). reflexivity.
Qed.

Lemma labelWithMean_ok : wf_img out -> (exists x y z v, pixel_is labin x y z v /\ v <> 0) ->
  (forall x y z v l, pixel_is labin x y z v -> v <> 0 -> component_list (scaled se) eq labin x y z l -> sum_on im l < tmax t2 * Z.of_nat (length l)) ->
  typed_img t1 im ->
  exists res, labelWithMean fuel t1 t2 junk dse se im labin out = Some (Some (1, res)) /\ sz res = sz im /\ wf_img res /\
    forall x y z v a, pixel_is labin x y z v -> pixel_is res x y z a ->
      (v = 0 -> a = 0) /\ (v <> 0 -> exists l, component_list (scaled se) eq labin x y z l /\ a = Z.quot (sum_on im l) (Z.of_nat (length l))).
Proof using Es Es' Wm Bd Hok Hf Hr Hn.
  intros Wo (x0 & y0 & z0 & v0 & P0 & Hv0) Ha Ty. destruct (labelWithMean_start x0 y0 z0 v0 P0 Hv0) as (lab & res & E & Sl & Wl & Ms & Hne & Z0 & F0 & Ks & Cm).
  assert (Wi : wf_img labin) by apply Hok.
  assert (Rng : forall x y z l, component_list (scaled se) eq labin x y z l -> tmin t1 * Z.of_nat (length l) <= sum_on im l <= tmax t1 * Z.of_nat (length l)).
  { intros x y z l (_ & Hl). assert (G : forall p, In p l -> inty t1 (znth 0 (pixs im) (scan_pos (sz im) p))).
    { intros ((x', y'), z') Hp. apply Hl in Hp. assert (I : inside (sz im) x' y' z') by (rewrite <- Es'; destruct Hp as [v Q|? ? ? ? ? ? ? v _ _ Q' _ _]; [apply Q|apply Q']).
      destruct (pixel_exists im x' y' z' Wm I) as (u & (_ & R)). cbn [scan_pos]. rewrite (znth_rd 0 _ _ _ R). unfold typed_img in Ty. rewrite Forall_forall in Ty. apply Ty. eapply rd_In. exact R. }
    unfold sum_on. clear - G. induction l as [|p l IH]; [cbn; lia|]. cbn [map length]. rewrite Zsum_cons, Nat2Z.inj_succ. pose proof (G p (or_introl eq_refl)) as Hp. unfold inty in Hp.
    specialize (IH ltac:(intros; apply G; right; assumption)). lia. }
  assert (Vals : forall k q, In (k, q) res -> (q < inject_Z (tmax t2))%Q /\ (q <= inject_Z (tmax t1))%Q).
  { intros k q H. pose proof (Ks k q H) as Hk. assert (F : mfind k res = Some q) by (apply msorted_In; assumption). assert (k <> 0) as K0 by congruence.
    destruct (at_position lab k Wl Hk) as (x & y & z & P). destruct (Cm x y z k P K0) as (l & Cl & Hl & F'). assert (q = (inject_Z (sum_on im l) / inject_Z (Z.of_nat (length l)))%Q) as -> by congruence.
    destruct (pixel_exists labin x y z Wi) as (v & Pv); [rewrite Es', <- Sl; apply P|]. assert (Hv : v <> 0) by (intros ->; apply K0; apply (Z0 _ _ _ _ _ Pv P); reflexivity).
    split; [apply quotient_lt; [exact Hl|]; eapply Ha; eassumption|]. apply quotient_upper; [exact Hl|]. apply (Rng _ _ _ _ Cl). }
  rewrite E. destruct (qmap_max_spec res Hne) as (mx & -> & (k & Hk) & _). pose proof (Vals k mx Hk) as (V1 & _). replace (Qless mx (inject_Z (tmax t2))) with true by (symmetry; apply Qless_spec; exact V1). cbn [negb].
  rewrite applyLookup_mean_ok; try assumption; [|congruence|intros; eapply Vals; eassumption]. cbn [option_bind fst snd Z.eqb Pos.eqb]. eexists. split; [reflexivity|]. split; [cbn; congruence|]. split.
  { split; cbn [sz pixs]; [apply Wo|]. rewrite map_length. destruct Wl as [_ Wl']. rewrite Wl', Sl, Es. reflexivity. }
  intros x y z v a P [Ia Pa]. cbn [sz pixs] in Ia, Pa. destruct (pixel_exists lab x y z Wl) as (o & Po); [rewrite Sl, <- Es'; apply P|].
  pose proof Po as [_ Ro]. assert (Ed : sz lab = sz out) by congruence. rewrite <- Ed, rd_map, Ro in Pa. cbn in Pa. injection Pa as <-. pose proof (Z0 _ _ _ _ _ P Po). split.
  - intros Hv. assert (o = 0) as -> by tauto. rewrite F0. reflexivity.
  - intros Hv. assert (Ho : o <> 0) by tauto. destruct (Cm x y z o Po Ho) as (l & Cl & Hl & ->). exists l. split; [exact Cl|]. rewrite quotient_trunc by exact Hl. apply wrap_id. unfold inty.
    pose proof (Rng _ _ _ _ Cl) as (R1 & R2). assert (tmin t1 <= 0 <= tmax t1) as T0 by (destruct t1; cbn; lia). pose proof (Z.quot_rem' (sum_on im l) (Z.of_nat (length l))) as D.
    pose proof (Z.rem_bound_abs (sum_on im l) (Z.of_nat (length l)) ltac:(lia)) as D2. destruct (Z.le_ge_cases 0 (sum_on im l)).
    + pose proof (Z.rem_nonneg (sum_on im l) (Z.of_nat (length l)) ltac:(lia) ltac:(lia)). nia.
    + pose proof (Z.rem_nonpos (sum_on im l) (Z.of_nat (length l)) ltac:(lia) ltac:(lia)). nia.
Qed.

(** A component whose mean reaches the maximum of the type of the labels. *)
Lemma labelWithMean_reject x y z v l : pixel_is labin x y z v -> v <> 0 -> component_list (scaled se) eq labin x y z l -> tmax t2 * Z.of_nat (length l) <= sum_on im l ->
  labelWithMean fuel t1 t2 junk dse se im labin out = Some (Some (0, out)).
Proof using Es Es' Wm Bd Hok Hf Hr Hn.
  intros P0 Hv0 Cl0 Hu. destruct (labelWithMean_start x y z v P0 Hv0) as (lab & res & E & Sl & Wl & Ms & Hne & Z0 & F0 & Ks & Cm).
  rewrite E. destruct (qmap_max_spec res Hne) as (mx & -> & _ & M). destruct (pixel_exists lab x y z Wl) as (o & Po); [rewrite Sl, <- Es'; apply P0|].
  assert (Ho : o <> 0) by (intros ->; apply Hv0; apply (Z0 _ _ _ _ _ P0 Po); reflexivity). destruct (Cm x y z o Po Ho) as (l' & Cl & Hl & F).
  pose proof (component_list_fun _ _ _ _ _ _ _ Cl Cl0) as Pm. rewrite (sum_on_perm im _ _ Pm), (Permutation.Permutation_length Pm) in F. rewrite (Permutation.Permutation_length Pm) in Hl.
  apply mfind_In in F. specialize (M _ _ F). apply (quotient_le _ _ _ Hl) in Hu. replace (Qless mx (inject_Z (tmax t2))) with false; [reflexivity|]. symmetry. apply Qless_false. eapply Qle_trans; eassumption.
Qed.
End Mean.
