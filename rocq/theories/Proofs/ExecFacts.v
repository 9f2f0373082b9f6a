From Verif Require Export Spec.ExecSpec Model.Pixel Proofs.GeometryFacts.

Lemma pixelCount_eq s : pixelCount s = dw s * dh s * dd s.
Proof. unfold pixelCount, lineCount. ring. Qed.

Lemma all_events_In w n e :
  In e (all_events w n) <->
  match e with Ld i p => 0 <= i < n /\ 0 <= p < w | St i p => 0 <= i < n /\ 0 <= p < w end.
Proof.
  unfold all_events. rewrite in_flat_map. split.
  - intros (i & Hi & H). rewrite in_flat_map in H. destruct H as (p & Hp & H).
    apply zseq_In in Hi. apply zseq_In in Hp.
    cbn in H. destruct H as [<-|[<-|[]]]; auto.
  - destruct e as [i p|i p]; intros [Hi Hp]; exists i; rewrite in_flat_map;
      (split; [apply zseq_In; auto|]); exists p; (split; [apply zseq_In; auto|]); cbn; auto.
Qed.

Lemma NoDup_app_intro {A} (l1 l2 : list A) :
  NoDup l1 -> NoDup l2 -> (forall a, In a l1 -> ~ In a l2) -> NoDup (l1 ++ l2).
Proof.
  induction l1 as [|a l1 IH]; cbn; intros H1 H2 H; [auto|].
  inversion H1; subst. constructor.
  - rewrite in_app_iff. intros [?|?]; [tauto|]. eapply H; eauto.
  - apply IH; auto.
Qed.

Lemma NoDup_app_inv {A} (l1 l2 : list A) :
  NoDup (l1 ++ l2) -> NoDup l1 /\ NoDup l2 /\ (forall a, In a l1 -> ~ In a l2).
Proof.
  induction l1 as [|a l1 IH]; cbn; intros H; [repeat split; auto; constructor|].
  inversion H; subst. apply IH in H3 as (H1 & H2' & H3').
  rewrite in_app_iff in H2. repeat split; auto.
  - constructor; tauto.
  - intros b [<-|Hb]; [tauto|]. auto.
Qed.

Lemma NoDup_flat_map {A B} (f : A -> list B) l :
  NoDup l -> (forall a, In a l -> NoDup (f a)) ->
  (forall a b x, In a l -> In b l -> In x (f a) -> In x (f b) -> a = b) -> NoDup (flat_map f l).
Proof.
  induction l as [|a l IH]; cbn; intros HN H1 H2; [constructor|].
  inversion HN; subst. apply NoDup_app_intro.
  - apply H1; auto.
  - apply IH; auto. intros. eapply H2; eauto.
  - intros x Hx Hx2. apply in_flat_map in Hx2 as (b & Hb & Hx2).
    assert (a = b) by (eapply H2; eauto). subst; tauto.
Qed.

Lemma all_events_NoDup w n : NoDup (all_events w n).
Proof.
  unfold all_events. apply NoDup_flat_map; [apply zseq_NoDup| |].
  - intros i _. apply NoDup_flat_map; [apply zseq_NoDup| |].
    + intros p _. repeat constructor; cbn; intuition discriminate.
    + intros p q x _ _ Hp Hq. cbn in Hp, Hq. intuition congruence.
  - intros i j x _ _ Hi Hj. apply in_flat_map in Hi as (p & _ & Hi). apply in_flat_map in Hj as (q & _ & Hj).
    cbn in Hi, Hj. intuition congruence.
Qed.

Lemma paddr_eq d i p : 0 <= dh (idims d) -> 0 <= i < lineCount (idims d) ->
  paddr d i p = Some (ibase d + (i * dw (idims d) + p)).
Proof.
  intros H1 H2. unfold paddr. rewrite rd_restruct_lines by assumption. cbn. f_equal. lia.
Qed.

Lemma get_reg_In r i p v : get_reg r i p = Some v -> In ((i, p), v) r.
Proof.
  induction r as [|[[i' p'] v'] r IH]; cbn; [discriminate|].
  destruct (Z.eqb_spec i i'), (Z.eqb_spec p p'); cbn; intros E; subst; auto.
  left; congruence.
Qed.

Lemma In_get_reg r i p v : In ((i, p), v) r -> exists v', get_reg r i p = Some v'.
Proof.
  induction r as [|[[i' p'] v'] r IH]; cbn; [tauto|].
  intros [E|E].
  - injection E; intros; subst. rewrite !Z.eqb_refl. cbn. eauto.
  - destruct (_ && _); eauto.
Qed.

Section Exec.
  Variables (f : list Z -> Z) (srcs : list operand) (h0 : heap).
  Variables (w n : Z) (dest : Z -> Z -> option Z) (val : Z -> Z -> list Z) (cell : Z -> Z -> Z).
  Hypothesis dest_cell : forall i p, 0 <= i < n -> 0 <= p < w -> dest i p = Some (cell i p).
  Hypothesis cell_in : forall i p, 0 <= i < n -> 0 <= p < w -> 0 <= cell i p < Z.of_nat (length h0).
  (* reads of pixel (i,p) see the values [val i p] in every memory that agrees with h0 except at the
     cells of other pixels *)
  Hypothesis reads : forall h i p, 0 <= i < n -> 0 <= p < w -> length h = length h0 ->
    (forall a, (forall i' p', 0 <= i' < n -> 0 <= p' < w -> cell i' p' = a -> (i', p') = (i, p)) ->
       rd h a = rd h0 a) ->
    all_some (map (fun o => read_operand h o i p) srcs) = Some (val i p).
  Hypothesis cell_inj : forall i p i' p', 0 <= i < n -> 0 <= p < w -> 0 <= i' < n -> 0 <= p' < w ->
    cell i p = cell i' p' -> (i, p) = (i', p').

  Definition ev_in (e : event) : Prop :=
    match e with Ld i p => 0 <= i < n /\ 0 <= p < w | St i p => 0 <= i < n /\ 0 <= p < w end.

  Record inv (E : list event) (h : heap) (r : regs) : Prop := {
    inv_len : length h = length h0;
    inv_other : forall a, (forall i p, In (St i p) E -> cell i p <> a) -> rd h a = rd h0 a;
    inv_done : forall i p, In (St i p) E -> rd h (cell i p) = Some (f (val i p));
    inv_regs : forall i p v, In ((i, p), v) r -> v = f (val i p);
    inv_ld : forall i p, In (Ld i p) E -> exists v, In ((i, p), v) r }.

  Lemma exec_run : forall rest E h r,
    inv E h r -> NoDup (E ++ rest) -> (forall e, In e (E ++ rest) -> ev_in e) ->
    (forall e1 i p e2, E ++ rest = e1 ++ St i p :: e2 -> In (Ld i p) e1) ->
    exists h' r', fold_opt (step_event f srcs dest) rest (h, r) = Some (h', r') /\ inv (E ++ rest) h' r'.
  Proof.
    induction rest as [|e rest IH]; intros E h r HI HN HIn HO.
    - rewrite app_nil_r. exists h, r. split; [reflexivity|assumption].
    - assert (HE : E ++ e :: rest = (E ++ [e]) ++ rest) by (rewrite <- app_assoc; reflexivity).
      assert (He : ev_in e) by (apply HIn, in_app_iff; right; left; reflexivity).
      destruct HI as [I1 I2 I3 I4 I5].
      destruct e as [i p|i p]; cbn in He; destruct He as [Hi Hp].
      + (* load *)
        assert (HnSt : ~ In (St i p) E).
        { intros HS. apply in_split in HS as (e1 & e2 & ->).
          specialize (HO e1 i p (e2 ++ Ld i p :: rest)).
          rewrite <- app_assoc in HO. specialize (HO eq_refl).
          rewrite <- app_assoc in HN. apply NoDup_app_inv in HN as (_ & _ & HN).
          apply (HN _ HO). cbn. right. rewrite in_app_iff. right; left; reflexivity. }
        cbn [fold_opt step_event].
        rewrite (reads h i p Hi Hp I1).
        2:{ intros a Ha. apply I2. intros i' p' HS Hc. 
            assert (ev_in (St i' p')) as [Hi' Hp'] by (apply HIn, in_app_iff; left; exact HS).
            specialize (Ha i' p' Hi' Hp' Hc). injection Ha; intros; subst. tauto. }
        cbn [option_bind]. rewrite HE in *. apply IH; auto.
        constructor; auto.
        * intros a Ha. apply I2. intros i' p' HS. apply Ha, in_app_iff. left; exact HS.
        * intros i' p' HS. rewrite in_app_iff in HS. destruct HS as [HS|[HS|[]]]; [auto|discriminate].
        * intros i' p' v [HS|HS]; [injection HS; intros; subst; reflexivity|auto].
        * intros i' p' HS. rewrite in_app_iff in HS. destruct HS as [HS|[HS|[]]].
          -- destruct (I5 i' p' HS) as [v Hv]. exists v. right. exact Hv.
          -- injection HS; intros; subst. eexists. left. reflexivity.
      + (* store *)
        assert (HL : In (Ld i p) E) by (eapply HO; reflexivity).
        destruct (I5 i p HL) as [v Hv]. destruct (In_get_reg _ _ _ _ Hv) as [v' Hv'].
        pose proof (I4 _ _ _ (get_reg_In _ _ _ _ Hv')) as Ev'.
        cbn [fold_opt step_event]. rewrite Hv'. cbn [option_bind].
        rewrite (dest_cell i p Hi Hp). cbn [option_bind].
        destruct (wr_Some h (cell i p) v') as [h' Hw]; [rewrite I1; apply cell_in; auto|].
        rewrite Hw. cbn [option_bind]. rewrite HE in *. apply IH; auto.
        constructor; auto.
        * rewrite (wr_length _ _ _ _ Hw). exact I1.
        * intros a Ha. rewrite (rd_wr _ _ _ _ a Hw).
          destruct (Z.eqb_spec (cell i p) a) as [E1|N].
          -- exfalso. apply (Ha i p); [apply in_app_iff; right; left; reflexivity|exact E1].
          -- apply I2. intros i' p' HS. apply Ha, in_app_iff. left; exact HS.
        * intros i' p' HS. rewrite (rd_wr _ _ _ _ _ Hw).
          assert (ev_in (St i' p')) as [Hi' Hp'].
          { apply HIn, in_app_iff. left. exact HS. }
          destruct (Z.eqb_spec (cell i p) (cell i' p')) as [E1|N].
          -- apply cell_inj in E1; auto. injection E1; intros; subst. reflexivity.
          -- rewrite in_app_iff in HS. destruct HS as [HS|[HS|[]]]; [auto|].
             injection HS; intros; subst. tauto.
        * intros i' p' HS. apply I5. rewrite in_app_iff in HS.
          destruct HS as [HS|[HS|[]]]; [exact HS|discriminate].
  Qed.

  Lemma exec_all sched :
    valid_schedule w n sched ->
    exists h', run_events f srcs dest sched h0 = Some h' /\
      length h' = length h0 /\
      (forall i p, 0 <= i < n -> 0 <= p < w -> rd h' (cell i p) = Some (f (val i p))) /\
      (forall a, (forall i p, 0 <= i < n -> 0 <= p < w -> cell i p <> a) -> rd h' a = rd h0 a).
  Proof.
    intros [HP HO].
    destruct (exec_run sched [] h0 []) as (h' & r' & HR & HI).
    - constructor; cbn; try tauto; try congruence.
    - cbn. eapply Permutation_NoDup; [symmetry; exact HP|apply all_events_NoDup].
    - cbn. intros e He. apply (Permutation_in _ HP) in He. apply all_events_In in He. exact He.
    - exact HO.
    - exists h'. unfold run_events. unfold regs, heap in *. rewrite HR. cbn. destruct HI as [I1 I2 I3 I4 I5]. cbn in *.
      split; [reflexivity|]. split; [exact I1|]. split.
      + intros i p Hi Hp. apply I3. apply (Permutation_in _ (Permutation_sym HP)).
        apply all_events_In. auto.
      + intros a Ha. apply I2. intros i p HS. apply (Permutation_in _ HP) in HS.
        apply all_events_In in HS. apply Ha; tauto.
  Qed.
End Exec.

Definition opv (h : heap) (o : operand) (k : Z) : Z :=
  match o with OVal v => v | OImg d => znth 0 h (ibase d + k) end.

Lemma opv_value h out o k :
  operand_ok h out o -> 0 <= k < dw (idims out) * dh (idims out) * dd (idims out) ->
  operand_value h o k (opv h o k).
Proof.
  intros Ho Hk. destruct o as [d|v]; cbn in *; [|reflexivity].
  destruct Ho as (Hd & (Hw & Hb1 & Hb2) & _). apply rd_znth. rewrite Hd in *. lia.
Qed.

Theorem exec_pixelwise_correct f srcs out sched h :
  placed h out ->
  (forall o, In o srcs -> operand_ok h out o) ->
  valid_schedule (dw (idims out)) (dd (idims out) * dh (idims out)) sched ->
  exists h', exec_pixelwise f srcs out sched h = Some h' /\
    pixelwise_result (fun vs v => v = f vs) srcs out h h'.
Proof.
  intros Hout Hsrc HS. set (s := idims out) in *.
  destruct Hout as ((Hw & Hh & Hd) & Hb1 & Hb2). fold s in Hw, Hh, Hd, Hb2.
  assert (Hlc : lineCount s = dd s * dh s) by reflexivity.
  assert (Hidx : forall i p, 0 <= i < dd s * dh s -> 0 <= p < dw s ->
                  0 <= i * dw s + p < dw s * dh s * dd s) by (intros; nia).
  destruct (exec_all f srcs h (dw s) (dd s * dh s) (paddr out)
              (fun i p => map (fun o => opv h o (i * dw s + p)) srcs)
              (fun i p => ibase out + (i * dw s + p))) with (sched := sched)
    as (h' & HR & HL & HD & HO); auto.
  - intros i p Hi Hp. apply paddr_eq; auto.
  - intros i p Hi Hp. specialize (Hidx i p Hi Hp). lia.
  - intros hc i p Hi Hp HLc Hag. apply all_some_map. intros o Ho.
    specialize (Hsrc o Ho). destruct o as [d|v]; [|reflexivity].
    cbn in *. destruct Hsrc as (Hdd & (Hwd & Hb1d & Hb2d) & Hsd). fold s in Hdd.
    rewrite paddr_eq by (rewrite Hdd; auto). cbn. rewrite Hdd.
    pose proof (Hidx i p Hi Hp) as Hip.
    rewrite Hag.
    + apply rd_znth. rewrite Hdd in Hb2d. lia.
    + intros i' p' Hi' Hp' E. pose proof (Hidx i' p' Hi' Hp').
      destruct Hsd as [Hsd|Hsd].
      * assert (i' * dw s + p' = i * dw s + p) as E2 by lia.
        assert (i' = i) by nia. subst. assert (p' = p) by lia. subst. reflexivity.
      * exfalso. apply (Hsd (ibase d + (i * dw s + p))). unfold owns. rewrite Hdd. fold s. split; [lia|].
        rewrite <- E. fold s. lia.
  - intros i p i' p' Hi Hp Hi' Hp' E.
    assert (i' * dw s + p' = i * dw s + p) as E2 by lia.
    assert (i' = i) by nia. subst. assert (p' = p) by lia. subst. reflexivity.
  - exists h'. split; [exact HR|]. split; [exact HL|]. split.
    + fold s. intros k Hk. exists (map (fun o => opv h o k) srcs), (f (map (fun o => opv h o k) srcs)).
      split; [|split; [|reflexivity]].
      * clear HD HO HR HS. induction srcs as [|o l IH]; cbn; constructor.
        -- eapply opv_value; [apply Hsrc; left; reflexivity|]. exact Hk.
        -- apply IH. intros; apply Hsrc; right; auto.
      * assert (0 < dw s) by nia.
        assert (Hkd : 0 <= k / dw s < dd s * dh s).
        { split; [apply Z.div_pos; lia| apply Z.div_lt_upper_bound; nia]. }
        assert (Hkm := Z.mod_pos_bound k (dw s) ltac:(lia)).
        specialize (HD _ _ Hkd Hkm). cbn in HD.
        replace (k / dw s * dw s + k mod dw s) with k in HD by (pose proof (Z.div_mod k (dw s)); lia).
        exact HD.
    + intros a Ha. apply HO. intros i p Hi Hp E. apply Ha. unfold owns. fold s.
      specialize (Hidx i p Hi Hp). lia.
Qed.

(** The in-place form only writes to the temporary line. *)
Lemma exec_inplace_frame f a b tmp sched h :
  idims a = idims b -> placed h a -> placed h b ->
  0 <= tmp -> tmp + dw (idims b) <= Z.of_nat (length h) ->
  valid_schedule (dw (idims b)) (dd (idims b) * dh (idims b)) sched ->
  exists h', exec_binary_inplace f a b tmp sched h = Some h' /\ length h' = length h /\
    forall x, ~ (tmp <= x < tmp + dw (idims b)) -> rd h' x = rd h x.
Proof.
  intros Hab Ha Hb Ht1 Ht2 HS. unfold exec_binary_inplace, run_events.
  set (s := idims b) in *.
  destruct HS as [HP HO].
  assert (G : forall rest E hc r,
    sched = E ++ rest -> length hc = length h ->
    (forall x, ~ (tmp <= x < tmp + dw s) -> rd hc x = rd h x) ->
    (forall i p, In (Ld i p) E -> exists v, In ((i,p),v) r) ->
    exists h' r', fold_opt (step_event f [OImg a; OImg b] (fun _ p => Some (tmp + p))) rest (hc, r)
      = Some (h', r') /\ length h' = length h /\
      (forall x, ~ (tmp <= x < tmp + dw s) -> rd h' x = rd h x)).
  { induction rest as [|e rest IH]; intros E hc r HE HL HF HR.
    - exists hc, r. auto.
    - assert (He : In e (all_events (dw s) (dd s * dh s))).
      { apply (Permutation_in _ HP). rewrite HE. apply in_app_iff; right; left; reflexivity. }
      apply all_events_In in He.
      assert (HE' : sched = (E ++ [e]) ++ rest) by (rewrite <- app_assoc; exact HE).
      destruct e as [i p|i p]; destruct He as [Hi Hp]; cbn [fold_opt step_event].
      + destruct Ha as ((Hwa & Hha & Hda) & Hba1 & Hba2), Hb as ((Hwb & Hhb & Hdb) & Hbb1 & Hbb2).
        rewrite Hab in *. fold s in Hwa, Hha, Hda, Hwb, Hhb, Hdb, Hba2, Hbb2.
        assert (0 <= i * dw s + p < dw s * dh s * dd s) by nia.
        cbn [map read_operand]. rewrite (paddr_eq a), (paddr_eq b) by (try rewrite Hab; auto).
        cbn [option_bind]. rewrite Hab. fold s.
        rewrite (rd_znth 0 hc (ibase a + (i * dw s + p))) by lia.
        rewrite (rd_znth 0 hc (ibase b + (i * dw s + p))) by lia.
        cbn [all_some option_bind].
        apply (IH _ _ _ HE'); auto.
        intros i' p' HI. rewrite in_app_iff in HI. destruct HI as [HI|[HI|[]]].
        * destruct (HR _ _ HI) as [v Hv]. exists v. right; exact Hv.
        * injection HI; intros; subst. eexists; left; reflexivity.
      + assert (HLd : In (Ld i p) E) by (eapply HO; exact HE).
        destruct (HR _ _ HLd) as [v Hv]. destruct (In_get_reg _ _ _ _ Hv) as [v' Hv'].
        rewrite Hv'. cbn [option_bind].
        destruct (wr_Some hc (tmp + p) v') as [h' Hw]; [lia|].
        rewrite Hw. cbn [option_bind]. apply (IH _ _ _ HE').
        * rewrite (wr_length _ _ _ _ Hw). exact HL.
        * intros x Hx. rewrite (rd_wr _ _ _ _ _ Hw). destruct (Z.eqb_spec (tmp + p) x); [lia|]. auto.
        * intros i' p' HI. rewrite in_app_iff in HI. destruct HI as [HI|[HI|[]]]; [auto|discriminate]. }
  destruct (G sched [] h []) as (h' & r' & HR & HL & HF); auto.
  - cbn; tauto.
  - unfold regs, heap in *. rewrite HR. cbn. eauto.
Qed.
