(** The max-tree: the flooding. *)
From Verif Require Export Proofs.MaxTreeProofs4 Proofs.WatershedLines2.

Local Notation "l # i" := (znth 0 l i) (at level 9).

Lemma served_high v p r r' : served true r (v, p) r' -> In (v, p) r /\ (forall e, In e r' -> In e r) /\ (forall w q, In (w, q) r -> w <= v).
Proof.
  intros (a & b & -> & -> & H1 & H2). split; [apply in_or_app; right; left; reflexivity|]. split.
  - intros e He. apply in_app_iff in He as [He|He]; apply in_or_app; [left|right; right]; exact He.
  - intros w q Hi. apply in_app_iff in Hi as [Hi|[Hi|Hi]].
    + specialize (H1 _ Hi). unfold better in H1. cbn [fst] in H1. lia.
    + injection Hi as -> _. lia.
    + specialize (H2 _ Hi). unfold better in H2. cbn [fst] in H2. lia.
Qed.

Lemma served_high_nodup r v p r' : served true r (v, p) r' -> NoDup (map snd r) -> NoDup (map snd r') /\ ~ queued r' p /\ (forall q, queued r q <-> q = p \/ queued r' q).
Proof.
  intros (a & b & -> & -> & _ & _) ND. unfold queued. rewrite !map_app in *. cbn [map snd] in *. pose proof (NoDup_remove_1 _ _ _ ND). pose proof (NoDup_remove_2 _ _ _ ND).
  split; [assumption|]. split; [assumption|]. intros q. rewrite !in_app_iff. cbn [In]. intuition auto.
Qed.

Section flood.
Variables (t : ity) (mv : Z) (se : strelt) (s : dims) (px : list Z) (k : ckind).
Hypothesis Ht : t = UINT8 \/ t = UINT16.
Hypothesis Hmv : 0 <= mv.
Local Notation N := (dw s * dh s * dd s).
Hypothesis Hpx : forall p, 0 <= p < N -> mv <= px # p <= tmax t.
Hypothesis Hlen : Z.of_nat (length px) = N.
Hypothesis Hs : int_sized s.
Hypothesis Hpt : int_points se.
Hypothesis HP : planar se s.
Hypothesis Hsy : symmetric_se se.
Hypothesis HN : 0 < N < MAX_NODES.
Local Notation adj := (covers se s).
Definition co (p : Z) : Z * Z * Z := match getCoordsFromOffset s p with Some c => c | None => (0, 0, 0) end.
Local Notation mts := (mts t mv).
Local Notation mtp := (mtp px N adj co k).

Lemma adj_sym' : forall p q, adj p q -> adj q p.
Proof using Hsy HP. exact (covers_sym se s Hsy HP). Qed.
Lemma adj_rng' : forall p q, adj p q -> 0 <= p < N.
Proof using. intros p q (x & y & z & x' & y' & z' & I & _ & -> & _). apply inside_range. exact I. Qed.

Record minv (cur : Z -> Prop) (lam : Z) (st : mtstate) (r : list (Z * Z)) (par : Z -> Z) (kids own : Z -> list Z) : Prop := {
  i_s : mts lam (ms_lab st) (ms_tree st) par kids;
  i_p : mtp (fun q => queued r q \/ cur q) lam (ms_eti st) (ms_lab st) (ms_tree st) par own;
  i_q : hq_ok t true (ms_q st) r;
  i_nd : NoDup (map snd r);
  i_v : forall v p, In (v, p) r -> v = px # p;
  i_cnt : curLabel (ms_tree st) + Z.of_nat (count 0 (ms_eti st)) <= N + 1 }.

Lemma mtp_opn (opn opn' : Z -> Prop) lam eti lab tr par own : mtp opn lam eti lab tr par own -> (forall q, opn' q -> opn q) ->
  (forall q, opn q -> opn' q \/ forall q', adj q q' -> eti # q' <> 0) -> mtp opn' lam eti lab tr par own.
Proof using.
  intros [A B C D E F G H] I1 I2. constructor; try assumption.
  - intros p Hp. apply C, I1, Hp.
  - intros p Hp Vp. destruct (D p Hp Vp) as [Q|Q]; [exact (I2 p Q)|right; exact Q].
Qed.

Lemma queue_short opn lam eti lab tr par own r : mtp (fun q => queued r q \/ opn q) lam eti lab tr par own -> NoDup (map snd r) -> Z.of_nat (length r) <= N.
Proof using HN.
  intros P ND. rewrite <- (map_length snd). pose proof (NoDup_incl_length (l := map snd r) (l' := zseq N) ND) as L. rewrite zseq_length in L. 
  assert (incl (map snd r) (zseq N)) as I. { intros q Hq. apply zseq_In. apply (p_open _ _ _ _ _ _ _ _ _ _ _ _ P q). left; exact Hq. }
  specialize (L I). revert L. generalize (length (map snd r)). clear - HN. intros n L. apply Nat2Z.inj_le in L. rewrite Z2Nat.id in L; [exact L|]. apply Z.lt_le_incl, HN.
Qed.

Lemma queued_snoc r v p q : queued (r ++ [(v, p)]) q <-> queued r q \/ q = p.
Proof using.
  unfold queued. rewrite map_app, in_app_iff. cbn. split; [intros [H|[H|[]]]; [left; exact H|right; symmetry; exact H]|intros [H|H]; [left; exact H|right; left; symmetry; exact H]].
Qed.

Lemma nodup_snoc r v p : NoDup (map snd r) -> ~ queued r p -> NoDup (map snd (r ++ [(v, p)])).
Proof using.
  intros ND Nq. rewrite map_app. cbn. apply NoDup_rev in ND. rewrite <- (rev_involutive (_ ++ _)). apply NoDup_rev. rewrite rev_app_distr. cbn.
  constructor; [|exact ND]. intros Hi. apply Nq. apply in_rev in Hi. exact Hi.
Qed.

(** One neighbour that is not in the tree yet. *)
Lemma subFlood_ok lam st r par kids own p nb : minv (fun q => q = p) lam st r par kids own -> px # p = lam -> ~ queued r p -> adj p nb -> (ms_eti st) # nb = 0 ->
  exists st' stop lam' r' par' kids' own', subFlood t k s px st p nb = Some (st', stop) /\
    minv (fun q => stop = false /\ q = p) lam' st' r' par' kids' own' /\ (stop = false -> lam' = lam /\ ~ queued r' p) /\
    (length r' + 2 * count 0 (ms_eti st') <= length r + 2 * count 0 (ms_eti st))%nat /\
    (forall q, (ms_eti st) # q <> 0 -> (ms_eti st') # q <> 0) /\ (ms_eti st') # nb <> 0.
Proof using Ht Hmv Hpx Hlen Hs HP Hsy HN.
  intros [S P Q ND V C] Pl Np Apn Z0. pose proof (adj_rng' _ _ (adj_sym' _ _ Apn)) as Rnb. pose proof (adj_rng' _ _ Apn) as Rp.
  pose proof (queue_short _ _ _ _ _ _ _ _ P ND) as QS. pose proof (p_len _ _ _ _ _ _ _ _ _ _ _ _ P) as Le.
  assert (MAX_NODES = 41943040) as EM by reflexivity.
  assert (~ queued r nb) as Nnb. { intros Hq. destruct (p_open _ _ _ _ _ _ _ _ _ _ _ _ P nb (or_introl Hq)) as (_ & X & _). exact (X Z0). }
  assert (nb <> p) as Nnp. { intros ->. destruct (p_open _ _ _ _ _ _ _ _ _ _ _ _ P p (or_intror eq_refl)) as (_ & X & _). exact (X Z0). }
  assert (forall m, m <> 0 -> count 0 (ms_eti st) = (1 + count 0 (upd (ms_eti st) nb m))%nat) as Cnt. { intros m Hm. apply (count_upd 0 (ms_eti st) nb m); [clear - Le Rnb; lia|exact Z0|exact Hm]. }
  assert (curLabel (ms_tree st) < MAX_NODES) as HM. { specialize (Cnt 1 ltac:(discriminate)). clear - Cnt C HN. lia. }
  pose proof (Hpx nb Rnb) as Hv. unfold subFlood. rewrite (rd_znth 0 px p) by (clear - Hlen Rp; lia). cbn [option_bind]. rewrite (rd_znth 0 px nb) by (clear - Hlen Rnb; lia). cbn [option_bind].
  rewrite Pl. destruct (mt_node_ok t mv Ht Hmv k lam _ _ _ _ (px # nb) S Hv HM) as (lab' & tr' & par' & kids' & m & E & St & S' & El & Nm & Lold & Lsame & Anc & Hmax).
  rewrite E. cbn [option_bind]. rewrite wr_upd by (clear - Le Rnb; lia). cbn [option_bind].
  destruct (voxel_exists s nb (int_small _ Hs) Rnb) as (x & y & z & I & Enb).
  assert (getCoordsFromOffset s nb = Some (co nb)) as Ec. { unfold co. rewrite Enb, coords_voxel by (exact I || apply int_small; exact Hs). reflexivity. }
  rewrite Ec. cbn [option_bind]. pose proof (s_lens _ _ _ _ _ _ _ S') as (_ & _ & Lc). unfold node, curLabel in Nm.
  rewrite (@rd_znth crit (0, 0) (mt_crit tr') m) by (clear - Lc Nm; lia). cbn [option_bind]. rewrite wr_upd by (clear - Lc Nm; lia). cbn [option_bind].
  set (tr'' := MT _ _ _ _).
  assert (mts (Z.max lam (px # nb)) lab' tr'' par' kids') as S'' by (apply mts_crit; [exact S'|apply upd_length]).
  pose proof (visit t mv px N adj co k Ht Hmv Hpx adj_sym' adj_rng' _ _ _ _ _ _ _ _ lab' tr' par' kids' m p nb S P (or_intror eq_refl) Pl Rnb Apn Z0 St S' El Nm Lold Lsame Anc) as P'. set (own' := fun x => if x =? m then own m ++ [nb] else own x) in P'.
  assert (mtp (fun q => (queued r q \/ q = p) \/ q = nb) (Z.max lam (px # nb)) (upd (ms_eti st) nb m) lab' tr'' par' own') as P'' by exact P'. clear P'.
  assert (inty t (px # nb)) as Tn. { unfold inty. pose proof (u816 t Ht) as (-> & _). clear - Hv Hmv. lia. }
  assert (inty t lam) as Tl. { rewrite <- Pl. unfold inty. pose proof (u816 t Ht) as (-> & _). pose proof (Hpx p Rp). clear - H Hmv. lia. }
  assert (m <> 0) as Nm0 by (clear - Nm; lia).
  destruct (hq_push_ok t true (ms_q st) r (px # nb) nb Q Tn) as (q1 & Eq1 & Q1); [clear - QS HN EM; lia|]. rewrite Eq1. cbn [option_bind].
  assert (Cur' : curLabel tr'' + Z.of_nat (count 0 (upd (ms_eti st) nb m)) <= N + 1).
  { change (curLabel tr'') with (curLabel tr'). specialize (Cnt m Nm0). pose proof (e_cur _ _ _ _ _ St). clear - Cnt C H. lia. }
  assert (Up : forall q, znth 0 (upd (ms_eti st) nb m) q = if q =? nb then m else (ms_eti st) # q) by (intros q; apply znth_upd'; clear - Le Rnb; lia).
  assert (Mon : forall q, (ms_eti st) # q <> 0 -> znth 0 (upd (ms_eti st) nb m) q <> 0). { intros q Hq. rewrite Up. destruct (q =? nb); assumption. }
  assert (Vnb : znth 0 (upd (ms_eti st) nb m) nb <> 0) by (rewrite Up, Z.eqb_refl; exact Nm0).
  clearbody tr'' own'. destruct (Z.gtb_spec (px # nb) lam) as [G|G].
  - assert (~ queued (r ++ [(px # nb, nb)]) p) as Np'. { rewrite queued_snoc. intros [?|?]; [contradiction|congruence]. }
    destruct (hq_push_ok t true q1 _ lam p Q1 Tl) as (q2 & Eq2 & Q2); [rewrite app_length; cbn [length]; clear - QS HN EM; lia|]. rewrite Eq2. cbn [option_bind].
    exists (MS (upd (ms_eti st) nb m) lab' tr'' q2), true, (Z.max lam (px # nb)), ((r ++ [(px # nb, nb)]) ++ [(lam, p)]), par', kids', own'. split; [reflexivity|]. split; [|split; [discriminate|]].
    + constructor; cbn [ms_lab ms_eti ms_tree ms_q].
      * exact S''.
      * apply (mtp_opn _ _ _ _ _ _ _ _ P''); intros q H; cbn beta in H |- *.
        -- destruct H as [H|(H & _)]; [|discriminate]. apply queued_snoc in H as [H|H]; [|auto]. apply queued_snoc in H as [H|H]; auto.
        -- left. left. apply queued_snoc. destruct H as [[H|H]|H]; [left; apply queued_snoc; auto|auto|left; apply queued_snoc; auto].
      * exact Q2.
      * apply nodup_snoc; [apply nodup_snoc; assumption|exact Np'].
      * intros v q Hi. apply in_app_iff in Hi as [Hi|[Hi|[]]]; [|injection Hi as <- <-; congruence]. apply in_app_iff in Hi as [Hi|[Hi|[]]]; [apply V; exact Hi|congruence].
      * exact Cur'.
    + split; [|split; [exact Mon|exact Vnb]]. cbn [ms_eti]. rewrite !app_length. cbn [length]. specialize (Cnt m Nm0). clear - Cnt. lia.
  - exists (MS (upd (ms_eti st) nb m) lab' tr'' q1), false, (Z.max lam (px # nb)), (r ++ [(px # nb, nb)]), par', kids', own'. split; [reflexivity|]. split; [|split].
    + constructor; cbn [ms_lab ms_eti ms_tree ms_q].
      * exact S''.
      * apply (mtp_opn _ _ _ _ _ _ _ _ P''); intros q H; cbn beta in H |- *.
        -- destruct H as [H|(_ & H)]; [|auto]. apply queued_snoc in H as [H|H]; auto.
        -- left. destruct H as [[H|H]|H]; [left; apply queued_snoc; auto|auto|left; apply queued_snoc; auto].
      * exact Q1.
      * apply nodup_snoc; assumption.
      * intros v q Hi. apply in_app_iff in Hi as [Hi|[Hi|[]]]; [apply V; exact Hi|congruence].
      * exact Cur'.
    + intros _. split; [clear - G; lia|]. rewrite queued_snoc. intros [?|?]; [contradiction|congruence].
    + split; [|split; [exact Mon|exact Vnb]]. cbn [ms_eti]. rewrite !app_length. cbn [length]. specialize (Cnt m Nm0). clear - Cnt. lia.
Qed.

Lemma minv_cur cur cur' lam st r par kids own : (forall q, cur q <-> cur' q) -> minv cur lam st r par kids own -> minv cur' lam st r par kids own.
Proof using.
  intros H [A B C D E F]. constructor; try assumption. eapply mtp_opn; [exact B|..]; intros q; [intros [?|Hq]|intros [?|Hq]]; [auto|right; apply H; exact Hq|auto|left; right; apply H; exact Hq].
Qed.

(** The scan of the neighbours of [p]. *)
Lemma mt_scan_ok p xyz pts : forall lam st r par kids own, minv (fun q => q = p) lam st r par kids own -> px # p = lam -> ~ queued r p ->
  (forall pt nb, In pt pts -> nb_offset se s p xyz pt = Some nb -> adj p nb) ->
  (forall nb, adj p nb -> (ms_eti st) # nb <> 0 \/ exists pt, In pt pts /\ nb_offset se s p xyz pt = Some nb) ->
  exists st' lam' r' par' kids' own', mt_scan t k se s px p xyz pts st = Some st' /\
    minv (fun _ => False) lam' st' r' par' kids' own' /\
    (length r' + 2 * count 0 (ms_eti st') <= length r + 2 * count 0 (ms_eti st))%nat /\
    (forall q, (ms_eti st) # q <> 0 -> (ms_eti st') # q <> 0).
Proof using Ht Hmv Hpx Hlen Hs HP Hsy HN.
  induction pts as [|pt pts IH]; intros lam st r par kids own I Pl Np H1 H2; cbn [mt_scan].
  - exists st, lam, r, par, kids, own. split; [reflexivity|]. split; [|split; [lia|auto]]. destruct I as [A B C D E F]. constructor; try assumption.
    eapply mtp_opn; [exact B|..]; intros q; [intros [?|[]]; auto|]. intros [?| ->]; [auto|]. right. intros q' Hq. destruct (H2 q' Hq) as [?|(? & [] & _)]. assumption.
  - assert (H1' : forall pt' nb, In pt' pts -> nb_offset se s p xyz pt' = Some nb -> adj p nb) by (intros pt' nb Hi; apply H1; right; exact Hi).
    destruct (nb_offset se s p xyz pt) as [nb|] eqn:En.
    + pose proof (H1 pt nb (or_introl eq_refl) En) as Apn. pose proof (adj_rng' _ _ (adj_sym' _ _ Apn)) as Rnb.
      rewrite (rd_znth 0) by (pose proof (p_len _ _ _ _ _ _ _ _ _ _ _ _ (i_p _ _ _ _ _ _ _ I)); lia). cbn [option_bind].
      destruct (Z.eqb_spec ((ms_eti st) # nb) 0) as [Z0|N0].
      * destruct (subFlood_ok _ _ _ _ _ _ p nb I Pl Np Apn Z0) as (st1 & stop & lam1 & r1 & par1 & kids1 & own1 & E1 & I1 & St1 & M1 & V1 & Vn).
        rewrite E1. cbn [option_bind]. destruct stop.
        -- exists st1, lam1, r1, par1, kids1, own1. split; [reflexivity|]. split; [|split; [exact M1|exact V1]].
           eapply minv_cur; [|exact I1]. intros q. cbn. split; [intros (? & _); discriminate|intros []].
        -- destruct (St1 eq_refl) as (-> & Np1).
           destruct (IH lam st1 r1 par1 kids1 own1) as (st2 & lam2 & r2 & par2 & kids2 & own2 & E2 & I2 & M2 & V2).
           ++ eapply minv_cur; [|exact I1]. intros q. cbn. tauto.
           ++ exact Pl.
           ++ exact Np1.
           ++ exact H1'.
           ++ intros nb' Hn. destruct (H2 nb' Hn) as [?|(pt' & [<- |Hi] & E')]; [left; apply V1; assumption| |right; eauto]. rewrite En in E'. injection E' as <-. left; exact Vn.
           ++ exists st2, lam2, r2, par2, kids2, own2. split; [exact E2|]. split; [exact I2|]. split; [lia|auto].
      * apply (IH lam st r par kids own I Pl Np H1'). intros nb' Hn. destruct (H2 nb' Hn) as [?|(pt' & [<- |Hi] & E')]; [auto| |right; eauto]. rewrite En in E'. injection E' as <-. auto.
    + apply (IH lam st r par kids own I Pl Np H1'). intros nb' Hn. destruct (H2 nb' Hn) as [?|(pt' & [<- |Hi] & E')]; [auto| |right; eauto]. congruence.
Qed.

Lemma mt_flood_ok fuel : forall lam st r par kids own, minv (fun _ => False) lam st r par kids own ->
  (length r + 2 * count 0 (ms_eti st) <= fuel)%nat ->
  exists st' lam' par' kids' own', mt_flood fuel t k se s px mv st = Some (Some st') /\ minv (fun _ => False) lam' st' [] par' kids' own' /\
    (forall q, (ms_eti st) # q <> 0 -> (ms_eti st') # q <> 0).
Proof using Ht Hmv Hpx Hlen Hs Hpt HP Hsy HN.
  induction fuel as [|fuel IH]; intros lam st r par kids own I F; cbn [mt_flood].
  - assert (r = []) as -> by (destruct r; [reflexivity|cbn in F; lia]).
    unfold hq_isEmpty. rewrite (ho_size _ _ _ _ (i_q _ _ _ _ _ _ _ I)). cbn [length Z.of_nat Z.eqb negb]. rewrite andb_false_r. cbn [negb].
    exists st, lam, par, kids, own. auto.
  - destruct r as [|e r0].
    + unfold hq_isEmpty. rewrite (ho_size _ _ _ _ (i_q _ _ _ _ _ _ _ I)). cbn [length Z.of_nat Z.eqb negb]. rewrite andb_false_r. cbn [negb].
      exists st, lam, par, kids, own. auto.
    + set (r := e :: r0) in *. pose proof I as [S P Q ND V C].
      assert (hq_isEmpty (ms_q st) = false) as -> by (unfold hq_isEmpty; rewrite (ho_size _ _ _ _ Q); cbn [r length]; lia).
      destruct (ho_level1 _ _ _ _ Q ltac:(discriminate)) as ((e1 & Hi1 & Ee1) & _).
      assert (mv <= hq_level (ms_q st) <= tmax t) as HL. { rewrite <- Ee1. destruct e1 as [v1 p1]. cbn [fst]. rewrite (V v1 p1 Hi1). apply Hpx.
        apply (p_open _ _ _ _ _ _ _ _ _ _ _ _ P p1). left. apply (in_map snd) in Hi1. exact Hi1. }
      assert (hq_getHigherLevel t (ms_q st) >=? mv = true) as ->.
      { unfold hq_getHigherLevel. pose proof (u816 t Ht) as (-> & _ & TM). replace (to_size 0) with 0 by reflexivity. rewrite Z.add_0_l, to_size_id by (clear - HL TM Hmv; lia). clear - HL; lia. }
      cbn [andb negb].
      destruct (hq_pop_ok _ _ _ _ Q ltac:(discriminate)) as (v & p & q' & r' & E & Q' & Sv & Ln). rewrite E. cbn [option_bind].
      destruct (served_high _ _ _ _ Sv) as (Hin & Hsub & Hmax). destruct (served_high_nodup _ _ _ _ Sv ND) as (ND' & Np & Hq).
      pose proof (V v p Hin) as Ev. destruct (p_open _ _ _ _ _ _ _ _ _ _ _ _ P p) as (Rp & Vp & Lp & Ep). { left. apply Hq. auto. }
      destruct (nbs_spec se s p Hs Hpt HP Rp) as (xyz & Exyz & Nb1 & Nb2). rewrite Exyz. cbn [option_bind].
      destruct (mt_scan_ok p xyz (filter not_origin (se_points se)) (px # p) (MS (ms_eti st) (ms_lab st) (ms_tree st) q') r' par kids own) as (st2 & lam2 & r2 & par2 & kids2 & own2 & E2 & I2 & M2 & V2).
      * constructor; cbn [ms_lab ms_eti ms_tree ms_q].
        -- apply (mts_lower t mv lam); [exact S|split; [apply Hpx; exact Rp|exact Lp]|congruence].
        -- pose proof (p_open _ _ _ _ _ _ _ _ _ _ _ _ P) as PO. destruct P as [A B C' D E' F' G H]. constructor; try assumption.
           ++ intros q Hqq. destruct (PO q) as (X1 & X2 & X3 & X4). { left. apply Hq. destruct Hqq; auto. }
              split; [exact X1|]. split; [exact X2|]. split; [|exact X4]. rewrite <- Ev. destruct Hqq as [Hqq| ->]; [|clear - Ev; lia].
              unfold queued in Hqq. apply in_map_iff in Hqq as ((w & q1) & <- & Hqq). cbn [snd]. apply Hsub in Hqq. rewrite <- (V w q1 Hqq). exact (Hmax w q1 Hqq).
           ++ intros q Rq Vq. destruct (D q Rq Vq) as [[X|[]]|X]; [|right; exact X]. apply Hq in X. left. tauto.
        -- exact Q'.
        -- exact ND'.
        -- intros w q Hw. apply V. apply Hsub. exact Hw.
        -- exact C.
      * reflexivity.
      * exact Np.
      * intros pt nb Hi En. apply adj_sym'. apply Nb1. unfold nbs. apply in_flat_map. apply filter_In in Hi as (Hi & No). exists pt. split; [exact Hi|]. rewrite No, En. left; reflexivity.
      * intros nb Hn. cbn [ms_eti]. apply adj_sym' in Hn. destruct (Nb2 nb Hn) as [-> |Hi]; [left; exact Vp|]. right. unfold nbs in Hi. apply in_flat_map in Hi as (pt & Hi & Hn2).
        destruct (not_origin pt) eqn:No; [|contradiction]. destruct (nb_offset se s p xyz pt) as [o|] eqn:En; [|contradiction]. destruct Hn2 as [<- |[]]. exists pt. split; [apply filter_In; auto|exact En].
      * rewrite E2. cbn [option_bind]. destruct (IH lam2 st2 r2 par2 kids2 own2 I2) as (st3 & lam3 & par3 & kids3 & own3 & E3 & I3 & V3).
        -- cbn [ms_eti] in M2. clear - M2 F Ln. lia.
        -- exists st3, lam3, par3, kids3, own3. split; [exact E3|]. split; [exact I3|]. intros q Hq'. apply V3, V2. exact Hq'.
Qed.
End flood.
