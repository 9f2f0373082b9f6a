(** Flooding from markers: proofs. *)
From Verif Require Export Spec.WatershedSpec Proofs.NeighborFacts Proofs.BuildProofs Proofs.LabelProofs.

Lemma flood_coords_eq s cur : int_sized s -> 0 <= cur < dw s * dh s * dd s -> flood_coords s cur = getCoordsFromOffset s cur.
Proof.
  intros (A & B & C & D) H. unfold flood_coords, getCoordsFromOffset. cbv zeta.
  assert (0 <= dw s * dh s < 2 ^ 60) by nia. rewrite (to_size_id cur), (to_size_id (dw s * dh s)) by lia. reflexivity.
Qed.

Lemma flood_pixel_nbs {A} (f : Z -> A -> Z -> option A) se s cur : int_sized s -> int_points se -> planar se s -> 0 <= cur < dw s * dh s * dd s ->
  exists l, (forall st, flood_pixel f se s cur st = fold_opt (f cur) l st) /\ l = nbs se s cur (match flood_coords s cur with Some c => c | None => (0, 0, 0) end) /\
    (forall nb, In nb l -> 0 <= nb < dw s * dh s * dd s /\ covers se s nb cur) /\ (forall nb, covers se s nb cur -> nb = cur \/ In nb l).
Proof.
  intros Hs Hp HP Hc. destruct (nbs_spec se s cur Hs Hp HP Hc) as (xyz & E & N1 & N2). rewrite <- flood_coords_eq in E by assumption.
  exists (nbs se s cur xyz). split; [|rewrite E; auto]. intros st. unfold flood_pixel. rewrite E. cbn [option_bind]. apply scan_nbs. reflexivity.
Qed.

(** The markers are pushed. *)
Section Init.
Context (t : ity) (px m : list Z) (Ht : t = UINT8 \/ t = UINT16) (T0 : Forall (inty t) px) (Hl : length m = length px) (Hbig : Z.of_nat (length px) < 2 ^ 31).
Lemma flood_init_ok : exists q r, flood_init t px m = Some q /\ hq_ok t false q r /\ NoDup (map snd r) /\ (length r <= length m)%nat /\
  forall v p, In (v, p) r <-> 0 <= p < Z.of_nat (length m) /\ v = znth 0 px p /\ znth 0 m p <> 0.
Proof.
  unfold flood_init. set (step := fun q i => option_bind (rd m i) _).
  assert (H : forall n, (n <= length m)%nat -> exists q r, fold_opt step (zseq (Z.of_nat n)) (hq_init t false) = Some q /\ hq_ok t false q r /\ NoDup (map snd r) /\ (length r <= n)%nat /\
    forall v p, In (v, p) r <-> 0 <= p < Z.of_nat n /\ v = znth 0 px p /\ znth 0 m p <> 0).
  { induction n as [|n IH]; intros Hn.
    - exists (hq_init t false), []. split; [reflexivity|]. split; [apply hq_init_ok; exact Ht|]. split; [constructor|]. split; [cbn; lia|]. intros v p. split; [intros []|lia].
    - destruct (IH ltac:(lia)) as (q & r & E & Q & ND & L & R). rewrite Nat2Z.inj_succ, <- Z.add_1_r, zseq_succ, fold_opt_app, E by lia. cbn [option_bind fold_opt]. unfold step at 1.
      rewrite (rd_znth 0 m) by lia. cbn [option_bind]. destruct (Z.eqb_spec (znth 0 m (Z.of_nat n)) 0) as [E0|E0]; cbn [negb].
      + exists q, r. cbn [option_bind]. split; [reflexivity|]. split; [exact Q|]. split; [exact ND|]. split; [lia|]. intros v p. rewrite R. split; [intuition lia|].
        intros (A & B & C). split; [|auto]. destruct (Z.eq_dec p (Z.of_nat n)) as [->|]; [congruence|lia].
      + rewrite (rd_znth 0 px) by lia. cbn [option_bind]. destruct (hq_push_ok t false q r (znth 0 px (Z.of_nat n)) (Z.of_nat n) Q) as (q' & E' & Q').
        { apply typed_at with (l := px); auto. lia. } { lia. }
        rewrite E'. cbn [option_bind]. exists q', (r ++ [(znth 0 px (Z.of_nat n), Z.of_nat n)]). split; [reflexivity|]. split; [exact Q'|].
        split; [|split].
        * rewrite map_app. cbn [map snd]. 
          apply Permutation.Permutation_NoDup with (Z.of_nat n :: map snd r); [apply Permutation.Permutation_cons_append|]. constructor; [|exact ND].
          intros Hin. apply in_map_iff in Hin as ((v, p) & Ep & Hin). cbn in Ep. subst p. apply R in Hin. lia.
        * rewrite app_length. cbn. lia.
        * intros v p. rewrite in_app_iff. cbn [In]. rewrite R. split.
          -- intros [(A & B & C)|[E1|[]]]; [intuition lia|]. injection E1 as <- <-. split; [lia|auto].
          -- intros (A & B & C). destruct (Z.eq_dec p (Z.of_nat n)) as [->|]; [right; left; congruence|left; split; [lia|auto]]. }
  apply H. lia.
Qed.
End Init.

Section Basins.
Context (t : ity) (se : strelt) (s : dims) (px m : list Z).
Notation N := (dw s * dh s * dd s).
Context (Ht : t = UINT8 \/ t = UINT16) (Hs : int_sized s) (Hpts : int_points se) (Hpl : planar se s).
Context (Lp : Z.of_nat (length px) = N) (Lm : Z.of_nat (length m) = N) (Tp : Forall (inty t) px).
Local Notation "l # i" := (znth 0 l i) (at level 9).

(** Reached from a marker below level [h]. *)
Inductive below (h : Z) : Z -> Prop :=
| below0 p : 0 <= p < N -> m # p <> 0 -> px # p < h -> below h p
| below_step p nb : below h p -> covers se s nb p -> px # nb < h -> below h nb.

Lemma below_lt h p : below h p -> px # p < h.
Proof. intros B. destruct B; assumption. Qed.

Inductive bpath (lbl : list Z) (l h : Z) : Z -> Prop :=
| bpath0 p : 0 <= p < N -> m # p = l -> px # p <= h -> bpath lbl l h p
| bpath_step p nb : bpath lbl l h p -> covers se s nb p -> px # nb <= h -> lbl # nb = l -> bpath lbl l h nb.

Lemma bpath_mono lbl lbl' l h h' p : l <> 0 -> (forall q, 0 <= q < N -> lbl # q <> 0 -> lbl' # q = lbl # q) -> h <= h' -> bpath lbl l h p -> bpath lbl' l h' p.
Proof.
  intros Hl H Hh B. induction B as [p Hp Hm Hv|p nb B IH Cv Hv Hb]; [constructor; auto; lia|]. eapply bpath_step; eauto; [lia|].
  rewrite H; [exact Hb|apply (covers_range _ _ _ _ Cv)|lia].
Qed.

Definition queued (r : list (Z * Z)) (p : Z) : Prop := In p (map snd r).

Record binv (h : Z) (lbl : list Z) (q : hqueue) (r : list (Z * Z)) : Prop := {
  b_len : Z.of_nat (length lbl) = N;
  b_q : hq_ok t false q r;
  b_nd : NoDup (map snd r);
  b_tok : forall v p, In (v, p) r -> 0 <= p < N /\ v = px # p /\ lbl # p <> 0;
  b_mark : forall p, 0 <= p < N -> m # p <> 0 -> lbl # p = m # p;
  b_done : forall p nb, 0 <= p < N -> lbl # p <> 0 -> ~ queued r p -> covers se s nb p -> lbl # nb <> 0;
  b_below : forall p, below h p -> lbl # p <> 0 /\ ~ queued r p;
  b_path : forall p, 0 <= p < N -> lbl # p <> 0 -> exists k, bpath lbl lbl # p k p /\ ~ below k p /\ k <= Z.max h (px # p) }.

(** Scan of the neighbours: the unlabelled ones get the label of [cur] and are pushed. *)
Lemma flood_scan cur lab l : 0 <= cur < N -> lab <> 0 -> (forall nb, In nb l -> 0 <= nb < N) ->
  forall lbl q r, Z.of_nat (length lbl) = N -> hq_ok t false q r -> lbl # cur = lab ->
  NoDup (map snd r) -> (forall v p, In (v, p) r -> 0 <= p < N /\ v = px # p /\ lbl # p <> 0) -> Z.of_nat (length r + count 0 lbl) < 2 ^ 63 ->
  exists lbl' q' r', fold_opt (flood_neighbor t px cur) l (FL lbl q) = Some (FL lbl' q') /\
    Z.of_nat (length lbl') = N /\ hq_ok t false q' r' /\ NoDup (map snd r') /\
    (forall v p, In (v, p) r' -> 0 <= p < N /\ v = px # p /\ lbl' # p <> 0) /\
    (forall p, 0 <= p < N -> lbl' # p = if lbl # p =? 0 then if existsb (Z.eqb p) l then lab else 0 else lbl # p) /\
    (forall p, queued r' p <-> queued r p \/ (In p l /\ lbl # p = 0)) /\
    (length r' + count 0 lbl' = length r + count 0 lbl)%nat.
Proof.
  intros Hc Hlab. induction l as [|nb l IH]; intros Hin lbl q r Ll Q Ec ND Tok Big.
  { exists lbl, q, r. split; [reflexivity|]. split; [exact Ll|]. split; [exact Q|]. split; [exact ND|]. split; [exact Tok|]. split.
    - intros p _. destruct (Z.eqb_spec lbl # p 0) as [E|E]; [exact E|reflexivity].
    - split; [|reflexivity]. intros p. split; [auto|]. intros [H|[[] _]]; exact H. }
  cbn [fold_opt]. assert (Hnb : 0 <= nb < N) by (apply Hin; left; reflexivity).
  assert (E1 : flood_neighbor t px cur (FL lbl q) nb = if lbl # nb =? 0 then option_bind (hq_push t false q px # nb nb) (fun q => Some (FL (upd lbl nb lab) q)) else Some (FL lbl q)).
  { unfold flood_neighbor. cbn [fl_lbl fl_q]. rewrite (rd_znth 0 lbl nb), (rd_znth 0 lbl cur), (rd_znth 0 px nb) by lia. cbn [option_bind]. rewrite wr_upd by lia. rewrite Ec.
    destruct (lbl # nb =? 0); [|reflexivity]. destruct (hq_push _ _ _ _ _); reflexivity. }
  rewrite E1. destruct (Z.eqb_spec lbl # nb 0) as [E|E].
  - destruct (hq_push_ok t false q r px # nb nb Q) as (q1 & Eq & Q1); [apply typed_at with (l := px); auto; lia|lia|]. rewrite Eq. cbn [option_bind].
    assert (X : forall p, (upd lbl nb lab) # p = if p =? nb then lab else lbl # p) by (intros p; apply znth_upd'; lia).
    assert (Nq : ~ In nb (map snd r)). { intros Hi. apply in_map_iff in Hi as ((v, p) & Ep & Hi). cbn in Ep. subst p. apply Tok in Hi. lia. }
    pose proof (count_upd 0 lbl nb lab ltac:(lia) E Hlab) as Cn.
    destruct (IH ltac:(intros; apply Hin; right; assumption) (upd lbl nb lab) q1 (r ++ [(px # nb, nb)])) as (lbl' & q' & r' & F & L' & Q' & ND' & Tok' & V' & R' & C').
    + rewrite upd_length. exact Ll.
    + exact Q1.
    + rewrite X. destruct (Z.eqb_spec cur nb); [congruence|exact Ec].
    + rewrite map_app. cbn [map snd]. apply Permutation.Permutation_NoDup with (nb :: map snd r); [apply Permutation.Permutation_cons_append|]. constructor; assumption.
    + intros v p Hi. apply in_app_iff in Hi as [Hi|[Hi|[]]].
      * destruct (Tok v p Hi) as (A & B & C). split; [exact A|]. split; [exact B|]. rewrite X. destruct (p =? nb); auto.
      * injection Hi as <- <-. split; [exact Hnb|]. split; [reflexivity|]. rewrite X, Z.eqb_refl. exact Hlab.
    + rewrite app_length. cbn [length]. lia.
    + exists lbl', q', r'. split; [exact F|]. split; [exact L'|]. split; [exact Q'|]. split; [exact ND'|]. split; [exact Tok'|]. split; [|split].
      * intros p Hp. rewrite V' by exact Hp. rewrite X. cbn [existsb]. destruct (Z.eqb_spec p nb) as [->|Hne].
        -- cbn [orb]. replace (lab =? 0) with false by lia. replace (lbl # nb =? 0) with true by lia. reflexivity.
        -- cbn [orb]. reflexivity.
      * intros p. rewrite R'. unfold queued. rewrite map_app, in_app_iff. cbn [map snd In]. rewrite X. destruct (Z.eqb_spec p nb) as [->|Hne]; [intuition congruence|intuition congruence].
      * rewrite C', app_length. cbn [length]. lia.
  - destruct (IH ltac:(intros; apply Hin; right; assumption) lbl q r Ll Q Ec ND Tok Big) as (lbl' & q' & r' & F & L' & Q' & ND' & Tok' & V' & R' & C').
    exists lbl', q', r'. split; [exact F|]. split; [exact L'|]. split; [exact Q'|]. split; [exact ND'|]. split; [exact Tok'|]. split; [|split; [|exact C']].
    + intros p Hp. rewrite V' by exact Hp. cbn [existsb]. destruct (Z.eqb_spec p nb) as [->|Hne]; [replace (lbl # nb =? 0) with false by lia; reflexivity|reflexivity].
    + intros p. rewrite R'. cbn [In]. intuition congruence.
Qed.

Lemma served_low v p r r' : served false r (v, p) r' -> In (v, p) r /\ (forall e, In e r' -> In e r) /\ (forall w q, In (w, q) r -> v <= w).
Proof.
  clear. intros (a & b & -> & -> & H1 & H2). split; [apply in_or_app; right; left; reflexivity|]. split.
  - intros e He. apply in_app_iff in He as [He|He]; apply in_or_app; [left|right; right]; exact He.
  - intros w q Hi. apply in_app_iff in Hi as [Hi|[Hi|Hi]].
    + specialize (H1 _ Hi). unfold better in H1. cbn [fst] in H1. lia.
    + injection Hi as -> _. lia.
    + specialize (H2 _ Hi). unfold better in H2. cbn [fst] in H2. lia.
Qed.

Lemma served_nodup r v p r' : served false r (v, p) r' -> NoDup (map snd r) -> NoDup (map snd r') /\ ~ queued r' p /\ (forall q, queued r q <-> q = p \/ queued r' q).
Proof.
  clear. intros (a & b & -> & -> & _ & _) ND. unfold queued. rewrite !map_app in *. cbn [map snd] in *. pose proof (NoDup_remove_1 _ _ _ ND). pose proof (NoDup_remove_2 _ _ _ ND).
  split; [assumption|]. split; [assumption|]. intros q. rewrite !in_app_iff. cbn [In]. intuition auto.
Qed.

Lemma pixel_nbs {A} (f : Z -> A -> Z -> option A) cur st : 0 <= cur < N -> flood_pixel f se s cur st = fold_opt (f cur) (nbs se s cur (match flood_coords s cur with Some c => c | None => (0, 0, 0) end)) st.
Proof. intros Hc. destruct (flood_pixel_nbs f se s cur Hs Hpts Hpl Hc) as (l & El & -> & _). apply El. Qed.

(** One turn of the loop: the pixel [cur] is popped and its neighbours [l] are scanned. *)
Lemma flood_turn h lbl q r : binv h lbl q r -> r <> [] -> Z.of_nat (length r + count 0 lbl) < 2 ^ 63 ->
  exists cur q1 l lbl' q' r', hq_pop t false q = Some (cur, q1) /\ 0 <= cur < N /\ lbl # cur <> 0 /\ queued r cur /\
    (forall A (f : Z -> A -> Z -> option A) st, flood_pixel f se s cur st = fold_opt (f cur) l st) /\
    (forall nb, In nb l -> 0 <= nb < N /\ covers se s nb cur) /\ (forall nb, covers se s nb cur -> nb = cur \/ In nb l) /\
    fold_opt (flood_neighbor t px cur) l (FL lbl q1) = Some (FL lbl' q') /\ binv (Z.max h px # cur) lbl' q' r' /\
    (forall p, 0 <= p < N -> lbl' # p = if lbl # p =? 0 then if existsb (Z.eqb p) l then lbl # cur else 0 else lbl # p) /\
    (forall p, queued r' p <-> (queued r p /\ p <> cur) \/ (In p l /\ lbl # p = 0)) /\
    (forall p, below (Z.max h px # cur) p -> lbl # p <> 0 /\ ~ queued r p) /\ (length r' + count 0 lbl' + 1 = length r + count 0 lbl)%nat.
Proof.
  intros IV Hr Big.
  destruct IV as [Ll Q ND Tok Mk Dn Bl Pa]. destruct (hq_pop_ok _ _ _ _ Q) as (v & cur & q1 & r1 & Ep & Q1 & Sv & Ln); [exact Hr|].
  destruct (served_low v cur r r1 Sv) as (M1 & M2 & M3).
  destruct (served_nodup _ _ _ _ Sv ND) as (ND1 & Nc & Rq). destruct (Tok _ _ M1) as (Hc & -> & Hlab).
  destruct (flood_pixel_nbs (flood_neighbor t px) se s cur Hs Hpts Hpl Hc) as (l & El & Enb & N1 & N2).
  destruct (flood_scan cur lbl # cur l Hc Hlab ltac:(intros nb Hn; apply N1; exact Hn) lbl q1 r1 Ll Q1 eq_refl ND1 ltac:(intros; apply Tok; apply M2; assumption) ltac:(lia))
    as (lbl' & q' & r' & F & L' & Q' & ND' & Tok' & V' & R' & C').
  assert (Keep : forall p, 0 <= p < N -> lbl # p <> 0 -> lbl' # p = lbl # p) by (intros p Hp Hn; rewrite V' by exact Hp; replace (lbl # p =? 0) with false by lia; reflexivity).
  assert (New : forall p, 0 <= p < N -> lbl # p = 0 -> lbl' # p <> 0 -> In p l /\ lbl' # p = lbl # cur).
  { intros p Hp E. rewrite V' by exact Hp. rewrite E. cbn [Z.eqb]. destruct (existsb (Z.eqb p) l) eqn:Ex; [|congruence]. intros _. split; [|reflexivity]. apply existsb_exists in Ex as (y & Hy & Ey). apply Z.eqb_eq in Ey. subst y. exact Hy. }
  assert (In_l : forall p, In p l -> 0 <= p < N /\ lbl' # p <> 0).
  { intros p Hi. destruct (N1 p Hi) as (Hp & _). split; [exact Hp|]. rewrite V' by exact Hp. destruct (Z.eqb_spec lbl # p 0) as [E|E]; [|exact E].
    replace (existsb (Z.eqb p) l) with true; [exact Hlab|]. symmetry. apply existsb_exists. exists p. split; [exact Hi|apply Z.eqb_refl]. }
  (* pixels reached below the new level are done *)
  assert (Bl' : forall p, below (Z.max h px # cur) p -> lbl # p <> 0 /\ ~ queued r p).
  { destruct (Z.le_gt_cases px # cur h) as [Hle|Hgt]; [rewrite Z.max_l by exact Hle; exact Bl|]. rewrite Z.max_r by lia. intros p B.
    assert (Nq : forall p, px # p < px # cur -> ~ queued r p). { intros p' Hlt Hq. apply in_map_iff in Hq as ((w, p'') & Ep' & Hi). cbn in Ep'. subst p''. pose proof (M3 _ _ Hi). destruct (Tok _ _ Hi) as (_ & -> & _). lia. }
    induction B as [p Hp Hm Hv|p nb B IHB Cv Hv]; (split; [|apply Nq; exact Hv]).
    - rewrite (Mk p Hp Hm). exact Hm.
    - apply (Dn p nb); [apply (covers_range _ _ _ _ Cv)|apply IHB|apply IHB|exact Cv]. }
  assert (IV' : binv (Z.max h px # cur) lbl' q' r').
  { constructor.
    - exact L'.
    - exact Q'.
    - exact ND'.
    - exact Tok'.
    - intros p Hp Hm. rewrite Keep; [apply Mk; assumption|exact Hp|]. rewrite (Mk p Hp Hm). exact Hm.
    - intros p nb Hp Hl Hq Cv. destruct (covers_range _ _ _ _ Cv) as (Hnb & _). destruct (Z.eq_dec p cur) as [->|Hne].
      + destruct (N2 nb Cv) as [->|Hi]; [exact Hl|]. apply In_l. exact Hi.
      + destruct (Z.eq_dec lbl # p 0) as [E|E].
        * destruct (New p Hp E Hl) as (Hi & _). exfalso. apply Hq. apply R'. right. auto.
        * rewrite Keep; [|exact Hnb|]; apply (Dn p nb); auto; intros Hx; apply Rq in Hx as [->|Hx]; try congruence; apply Hq; apply R'; left; exact Hx.
    - intros p B. destruct (Bl' p B) as (A1 & A2). assert (Hp : 0 <= p < N) by (destruct B as [p Hp|p nb _ Cv]; [exact Hp|apply (covers_range _ _ _ _ Cv)]).
      rewrite Keep by assumption. split; [exact A1|]. intros Hq. apply R' in Hq as [Hq|[_ Hq]]; [apply A2; apply Rq; right; exact Hq|contradiction].
    - intros p Hp Hl. destruct (Z.eq_dec lbl # p 0) as [E|E].
      + destruct (New p Hp E Hl) as (Hi & El2). destruct (Pa cur Hc Hlab) as (k & P1 & P2 & P3). exists (Z.max (Z.max h px # cur) px # p). split; [|split; [|lia]].
        * rewrite El2. apply bpath_step with cur; [|apply N1; exact Hi|lia|exact El2]. eapply bpath_mono; [exact Hlab|exact Keep| |exact P1]. lia.
        * intros B. destruct (Z.le_gt_cases (Z.max h px # cur) px # p) as [Hle|Hgt].
          -- rewrite Z.max_r in B by exact Hle. apply below_lt in B. lia.
          -- rewrite Z.max_l in B by lia. apply Bl' in B. lia.
      + destruct (Pa p Hp E) as (k & P1 & P2 & P3). exists k. rewrite (Keep p Hp E). split; [|split; [exact P2|lia]]. eapply bpath_mono; [exact E|exact Keep| |exact P1]. lia. }
  exists cur, q1, l, lbl', q', r'. split; [exact Ep|]. split; [exact Hc|]. split; [exact Hlab|]. split; [apply Rq; auto|].
  split; [intros A f st; rewrite (pixel_nbs f cur st Hc), Enb; reflexivity|]. split; [exact N1|]. split; [exact N2|]. split; [exact F|]. split; [exact IV'|]. split; [exact V'|].
  split; [|split; [exact Bl'|lia]]. intros p. rewrite R', Rq. split; [|intuition congruence]. intros [Hq|Hq]; [left|right; exact Hq]. split; [auto|congruence].
Qed.

Lemma flood_loop_ok fuel : forall h lbl q r, binv h lbl q r -> (length r + count 0 lbl <= fuel)%nat -> Z.of_nat (length r + count 0 lbl) < 2 ^ 63 ->
  exists h' lbl' q', flood_loop fuel t se s px (FL lbl q) = Some (Some (FL lbl' q')) /\ binv h' lbl' q' [].
Proof.
  induction fuel as [|fuel IH]; intros h lbl q r IV Hf Big; cbn [flood_loop]; unfold hq_isEmpty; cbn [fl_q fl_lbl]; rewrite (ho_size _ _ _ _ (b_q _ _ _ _ IV)).
  - destruct r; [|cbn in Hf; lia]. cbn. eauto.
  - destruct r as [|e0 r0] eqn:Er; [cbn; eauto|]. rewrite <- Er in *. replace (Z.of_nat (length r) =? 0) with false by (rewrite Er; cbn; lia).
    destruct (flood_turn h lbl q r IV ltac:(rewrite Er; discriminate) Big) as (cur & q1 & l & lbl' & q' & r' & Ep & _ & _ & _ & El & _ & _ & F & IV' & _ & _ & _ & C').
    rewrite Ep. cbn [option_bind]. rewrite El, F. cbn [option_bind].
    destruct (IH _ _ _ _ IV' ltac:(lia) ltac:(lia)) as (h' & lbl2 & q2 & F2 & G). exists h', lbl2, q2. split; [exact F2|exact G].
Qed.

Lemma flood_start q r : hq_ok t false q r -> NoDup (map snd r) -> (forall v p, In (v, p) r <-> 0 <= p < Z.of_nat (length m) /\ v = px # p /\ m # p <> 0) -> binv (-1) m q r.
Proof.
  intros Q ND R. assert (Nn : forall p, 0 <= p < N -> 0 <= px # p). { intros p Hp. pose proof (typed_at t px p Tp ltac:(lia)) as I. unfold inty in I. destruct (u816 _ Ht) as (A & _). lia. }
  assert (Qd : forall p, 0 <= p < N -> m # p <> 0 -> queued r p). { intros p Hp Hm. apply in_map_iff. exists (px # p, p). split; [reflexivity|]. apply R. split; [lia|auto]. }
  constructor; [exact Lm|exact Q|exact ND| |auto| | |].
  - intros v p Hi. apply R in Hi. rewrite Lm in Hi. exact Hi.
  - intros p nb Hp Hm Hq. exfalso. apply Hq. apply Qd; assumption.
  - intros p B. exfalso. induction B as [p Hp Hm Hv|p nb B IHB Cv Hv]; [pose proof (Nn p Hp); lia|exact IHB].
  - intros p Hp Hm. exists (px # p). split; [constructor; auto; lia|]. split; [intros B; apply below_lt in B; lia|lia].
Qed.
End Basins.
