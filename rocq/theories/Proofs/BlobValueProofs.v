(** Proofs about the values of blobs. *)
From Verif Require Export Proofs.LabelMeasureProofs Model.BlobValues.
Local Open Scope Z_scope.

Lemma zone_In im lab v u : In u (zone im lab v) -> In u (pixs im).
Proof. intros Hu. unfold zone in Hu. apply in_map_iff in Hu as ([x y] & <- & Hu). apply filter_In in Hu as [Hu _]. apply in_combine_l in Hu. exact Hu. Qed.
Lemma zone_some im lab v : length (pixs lab) = length (pixs im) -> In v (pixs lab) -> exists u, In u (zone im lab v).
Proof. intros HL K. pose proof (zone_length im lab v HL). apply (count_occ_In Z.eq_dec) in K. destruct (zone im lab v) as [|u l]; [cbn in *; lia|]. exists u. left. reflexivity. Qed.

Lemma blobs_min_ok t onz lab im : wf_img lab -> 0 < dw (sz lab) -> length (pixs lab) = length (pixs im) -> typed_img t im ->
  exists b res, computeBlobs onz lab = Some b /\ process_blobs (blob_min t) b im = Some res /\ StronglySorted Z.lt (mkeys res) /\
    (forall v, In v (mkeys res) <-> label_kept onz v = true /\ In v (pixs lab)) /\
    (forall v, label_kept onz v = true -> In v (pixs lab) -> exists lo, mfind v res = Some lo /\ In lo (zone im lab v) /\ forall u, In u (zone im lab v) -> lo <= u).
Proof.
  intros Hwf Hw HL HT. destruct (process_blobs_ok (blob_min t) (fun l => fmin l (tmax t)) (fun _ => True) onz lab im Hwf Hw HL) as (b & res & E1 & E2 & E3 & E4 & E5).
  - intros seqs HR HF _ _. unfold blob_min. set (step := fun s v => if v <? s then v else s).
    rewrite (process_blob_fold _ (fun s v => Some (step s v))); [|exact HR|exact HF|].
    + rewrite (fold_opt_total _ step) by reflexivity. reflexivity.
    + intros s a n _. rewrite (fold_opt_total _ step) by reflexivity. reflexivity.
  - auto.
  - exists b, res. split; [exact E1|]. split; [exact E2|]. split; [exact E3|]. split; [exact E4|]. intros v K1 K2. eexists. split; [apply E5; assumption|].
    unfold typed_img in HT. rewrite Forall_forall in HT. destruct (zone_some im lab v HL K2) as (u & Hu).
    destruct (fmin_spec (zone im lab v) (tmax t)) as ([Q|Q] & H2 & H3); [|auto]. split; [|exact H3]. pose proof (HT u (zone_In _ _ _ _ Hu)). pose proof (H3 u Hu).
    unfold inty in *. replace (fmin (zone im lab v) (tmax t)) with u by lia. exact Hu.
Qed.

Definition vset (l : list Z) : zmap unit := fold_left (fun s v => minsert v tt s) l [].
Lemma vset_ok l : StronglySorted Z.lt (mkeys (vset l)) /\ forall v, In v (mkeys (vset l)) <-> In v l.
Proof.
  apply (fold_left_inv (fun done m => msorted m /\ forall v, In v (mkeys m) <-> In v done)).
  - split; [constructor|tauto].
  - intros done a todo m _ [HS HI]. split; [apply msorted_minsert; exact HS|].
    intros v. rewrite mkeys_minsert, HI, in_app_iff. cbn. intuition.
Qed.
Lemma blobs_values_ok onz lab im : wf_img lab -> 0 < dw (sz lab) -> length (pixs lab) = length (pixs im) ->
  exists b res, computeBlobs onz lab = Some b /\ process_blobs blob_values b im = Some res /\ StronglySorted Z.lt (mkeys res) /\
    (forall v, In v (mkeys res) <-> label_kept onz v = true /\ In v (pixs lab)) /\
    (forall v, label_kept onz v = true -> In v (pixs lab) -> exists l, mfind v res = Some l /\ StronglySorted Z.lt l /\ forall u, In u l <-> In u (zone im lab v)).
Proof.
  intros Hwf Hw HL. destruct (process_blobs_ok blob_values (fun l => mkeys (vset l)) (fun _ => True) onz lab im Hwf Hw HL) as (b & res & E1 & E2 & E3 & E4 & E5).
  - intros seqs HR HF _ _. unfold blob_values. set (step := fun (s : zmap unit) v => minsert v tt s).
    rewrite (process_blob_fold _ (fun s v => Some (step s v))); [|exact HR|exact HF|].
    + rewrite (fold_opt_total _ step) by reflexivity. reflexivity.
    + intros s a n _. rewrite (fold_opt_total _ step) by reflexivity. reflexivity.
  - auto.
  - exists b, res. split; [exact E1|]. split; [exact E2|]. split; [exact E3|]. split; [exact E4|]. intros v K1 K2. eexists. split; [apply E5; assumption|]. apply vset_ok.
Qed.

Lemma blobs_mode_ok t onz lab im : wf_img lab -> 0 < dw (sz lab) -> length (pixs lab) = length (pixs im) -> typed_img t im ->
  exists b res, computeBlobs onz lab = Some b /\ process_blobs blob_mode b im = Some res /\ StronglySorted Z.lt (mkeys res) /\
    (forall v, In v (mkeys res) <-> label_kept onz v = true /\ In v (pixs lab)) /\
    (forall v, label_kept onz v = true -> In v (pixs lab) -> exists m, mfind v res = Some (Some m) /\
       ((m = 0 /\ forall u, In u (zone im lab v) -> u <= 0) \/
        (0 < m /\ In m (zone im lab v) /\ forall u, In u (zone im lab v) -> 0 < u -> (count_occ Z.eq_dec (zone im lab v) u <= count_occ Z.eq_dec (zone im lab v) m)%nat))).
Proof.
  intros Hwf Hw HL HT. destruct (process_blobs_ok blob_mode (fun l => Some (snd (fold_left mode_step l ([], 0, 0)))) (fun _ => True) onz lab im Hwf Hw HL) as (b & res & E1 & E2 & E3 & E4 & E5).
  - intros seqs HR HF HN _. unfold blob_mode.
    set (step := fun (s : modest * option Z) u => let s' := mode_step (fst s) u in (s', Some (snd s'))).
    assert (K : forall l s, l <> [] -> fold_left step l s = (fold_left mode_step l (fst s), Some (snd (fold_left mode_step l (fst s))))).
    { induction l as [|a l IH]; intros s Hne; [congruence|]. cbn [fold_left]. destruct l as [|b0 l]; [reflexivity|]. rewrite IH by discriminate. reflexivity. }
    assert (NE : forall a n, 0 < n -> map (znth 0 (pixs im)) (zrange a n) <> []) by (intros a n Hn; rewrite zrange_cons by exact Hn; discriminate).
    rewrite (process_blob_fold _ (fun s v => Some (step s v))); [|exact HR|exact HF|].
    + rewrite (fold_opt_total _ step) by reflexivity. rewrite K; [reflexivity|]. destruct HF as [|[a n] l Hn HF]; [congruence|]. cbn [run_pixels flat_map fst snd] in *. rewrite map_app. intros E. apply app_eq_nil in E as (E & _). exact (NE a n Hn E).
    + intros s a n Hn. rewrite (fold_opt_total _ step) by reflexivity. rewrite K by (apply NE; exact Hn). reflexivity.
  - auto.
  - exists b, res. split; [exact E1|]. split; [exact E2|]. split; [exact E3|]. split; [exact E4|]. intros v K1 K2. eexists. split; [apply E5; assumption|].
    unfold typed_img in HT. rewrite Forall_forall in HT.
    pose proof (mode_fold (zone im lab v)) as P. destruct (fold_left mode_step (zone im lab v) ([], 0, 0)) as ((nb & mx) & md). cbn [snd].
    destruct P as (P1 & [(P2 & P3 & P4)|(P2 & P3 & P4)]).
    + intros u Hu. specialize (HT u (zone_In _ _ _ _ Hu)). unfold inty in HT. destruct t; cbn in HT; lia.
    + left. split; assumption.
    + right. split; [exact P2|]. split; [exact P3|]. intros u Hu Hp. specialize (P1 u Hu Hp). unfold cnt in *. lia.
Qed.
