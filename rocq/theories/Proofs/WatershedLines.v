(** Watershed lines: proofs. *)
From Verif Require Export Proofs.WatershedTheorems.

Lemma NoDup_flat_map_one {A B} (f : A -> list B) l : NoDup l -> (forall a, In a l -> (length (f a) <= 1)%nat) ->
  (forall a b c, In a l -> In b l -> In c (f a) -> In c (f b) -> a = b) -> NoDup (flat_map f l).
Proof.
  intros ND. induction ND as [|a l Hn ND IH]; intros H1 H2; cbn [flat_map]; [constructor|].
  assert (IHl : NoDup (flat_map f l)). { apply IH; [intros; apply H1; right; assumption|]. intros b b' c Hb Hb'. apply H2; right; assumption. }
  pose proof (H1 a (or_introl eq_refl)) as La. destruct (f a) as [|c [|c' r]] eqn:Ef; cbn in La |- *; [exact IHl| |lia].
  constructor; [|exact IHl]. intros Hin. apply in_flat_map in Hin as (b & Hb & Hc). assert (a = b) as -> by (apply (H2 a b c); [left; reflexivity|right; exact Hb|rewrite Ef; left; reflexivity|exact Hc]). contradiction.
Qed.

(** The neighbours met are distinct and differ from the pixel itself. *)
Lemma nbs_distinct se s cur : int_sized s -> int_points se -> distinct_points se -> 0 <= cur < dw s * dh s * dd s ->
  let l := nbs se s cur (match flood_coords s cur with Some c => c | None => (0, 0, 0) end) in NoDup l /\ ~ In cur l.
Proof.
  intros Hs Hp ND Hc l. destruct (voxel_exists s cur (int_small _ Hs) Hc) as (x0 & y0 & z0 & I0 & E0).
  assert (Ec : flood_coords s cur = Some (x0, y0, z0)) by (rewrite flood_coords_eq by assumption; rewrite E0; apply coords_voxel; [apply int_small; exact Hs|exact I0]).
  unfold l. rewrite Ec. clear l Ec.
  set (f := fun p => if not_origin p then match nb_offset se s cur (x0, y0, z0) p with Some o => [o] | None => [] end else []).
  assert (Hf : forall p o, In p (se_points se) -> In o (f p) -> not_origin p = true /\ let x := x0 + px_ p + hex_shift se y0 (y0 + py_ p) in inside s x (y0 + py_ p) (z0 + pz_ p) /\ o = voxel_offset (dw s) (dh s) x (y0 + py_ p) (z0 + pz_ p)).
  { intros p o Hip Ho. unfold f in Ho. destruct (not_origin p) eqn:No; [|contradiction]. split; [reflexivity|]. destruct (Hp p Hip) as (B1 & B2 & B3).
    destruct (nb_offset_spec se s x0 y0 z0 p Hs I0 B1 B2 B3) as [S1 S2]. cbv zeta in *. rewrite E0 in Ho. set (x := x0 + px_ p + hex_shift se y0 (y0 + py_ p)) in *.
    assert (D : inside s x (y0 + py_ p) (z0 + pz_ p) \/ ~ inside s x (y0 + py_ p) (z0 + pz_ p)) by (unfold inside; lia).
    destruct D as [D|D]; [rewrite (S1 D) in Ho; destruct Ho as [<-|[]]; auto|rewrite (S2 D) in Ho; contradiction]. }
  split.
  - apply (NoDup_flat_map_one f); [exact ND| |].
    + intros p _. unfold f. destruct (not_origin p); [destruct (nb_offset _ _ _ _ _)|]; cbn; lia.
    + intros p p' o Hi Hi' Ho Ho'. destruct (Hf p o Hi Ho) as (_ & J & E). destruct (Hf p' o Hi' Ho') as (_ & J' & E').
      cbv zeta in *. rewrite E in E'. destruct (voxel_inj s _ _ _ _ _ _ J J' E') as (A & B & C).
      assert (py_ p = py_ p') as Ey by lia. rewrite Ey in A. destruct p as ((a, b), c), p' as ((a', b'), c'). cbn in *. repeat f_equal; lia.
  - intros Hin. apply in_flat_map in Hin as (p & Hi & Ho). destruct (Hf p cur Hi Ho) as (No & J & E). cbv zeta in *. rewrite E0 in E.
    destruct (voxel_inj s _ _ _ _ _ _ I0 J E) as (A & B & C). assert (py_ p = 0 /\ pz_ p = 0) as (Ey & Ez) by lia. rewrite Ey in A.
    assert (hex_shift se y0 (y0 + 0) = 0) as Hz. { unfold hex_shift. rewrite Z.add_0_r, <- Z.negb_even. destruct (se_odd se), (Z.even y0); reflexivity. }
    rewrite Hz in A. unfold not_origin in No. lia.
Qed.

Lemma NoDup_bound (l : list Z) n : NoDup l -> (forall p, In p l -> 0 <= p < Z.of_nat n) -> (length l <= n)%nat.
Proof.
  intros ND H. rewrite <- (Nat2Z.id n), <- (zseq_length (Z.of_nat n)). apply NoDup_incl_length; [exact ND|]. intros p Hp. apply zseq_In. apply H. exact Hp.
Qed.

Lemma list_eq_znth (l1 l2 : list Z) : length l1 = length l2 -> (forall i, 0 <= i < Z.of_nat (length l1) -> znth 0 l1 i = znth 0 l2 i) -> l1 = l2.
Proof. intros E H. apply list_ext_rd; [exact E|]. intros i Hi. rewrite (rd_znth 0 l1), (rd_znth 0 l2), H by lia. reflexivity. Qed.

Section Lines.
Context (t : ity) (se : strelt) (s : dims) (px m : list Z).
Notation N := (dw s * dh s * dd s).
Context (Ht : t = UINT8 \/ t = UINT16) (Hs : int_sized s) (Hpts : int_points se) (Hpl : planar se s) (Hd : distinct_points se).
Context (Hsym : forall a b, covers se s a b -> covers se s b a).
Context (Lp : Z.of_nat (length px) = N) (Lm : Z.of_nat (length m) = N) (Tp : Forall (inty t) px).
Local Notation "l # i" := (znth 0 l i) (at level 9).
Notation L := STAT_LABELED.
Notation Q := STAT_QUEUED.
Notation C := (STAT_CANDIDATE t).
Notation W := (STAT_WS_LINE t).

Lemma stats_distinct : L <> Q /\ L <> C /\ L <> W /\ Q <> C /\ Q <> W /\ C <> W /\ L < C /\ Q < C /\ C < W.
Proof. clear - Ht. destruct (u816 _ Ht) as (_ & _ & H). unfold STAT_LABELED, STAT_QUEUED, STAT_CANDIDATE, STAT_WS_LINE. lia. Qed.

(** The label of the first labelled pixel of a list. *)
Definition first_label (lbl ws l : list Z) : Z := match find (fun nb => ws # nb =? L) l with Some nb => lbl # nb | None => 0 end.

Lemma ws_scan cur l : 0 <= cur < N -> ~ In cur l -> (forall nb, In nb l -> 0 <= nb < N) -> forall lbl ws tmp,
  Z.of_nat (length lbl) = N -> Z.of_nat (length ws) = N -> (forall nb, In nb l -> ws # nb = L -> lbl # nb <> 0) ->
  exists lbl' ws', fold_opt (ws_neighbor t cur) l (lbl, ws, tmp) = Some (lbl', ws', tmp ++ filter (fun nb => ws # nb =? C) l) /\
    Z.of_nat (length lbl') = N /\ Z.of_nat (length ws') = N /\ (forall p, p <> cur -> lbl' # p = lbl # p /\ ws' # p = ws # p) /\
    lbl' # cur = (if lbl # cur =? 0 then first_label lbl ws l else lbl # cur) /\
    ((ws' # cur = ws # cur /\ forall nb, In nb l -> ws # nb = L -> lbl # nb = lbl' # cur) \/
     (ws' # cur = W /\ (ws # cur = W \/ exists nb, In nb l /\ ws # nb = L /\ lbl # nb <> lbl' # cur))).
Proof.
  intros Hc. pose proof stats_distinct as D. induction l as [|nb l IH]; intros Nc Hin lbl ws tmp Ll Lw Hz.
  { exists lbl, ws. cbn. rewrite app_nil_r. split; [reflexivity|]. split; [exact Ll|]. split; [exact Lw|]. split; [auto|]. split; [destruct (Z.eqb_spec lbl # cur 0) as [E|E]; [exact E|reflexivity]|]. left. split; [reflexivity|]. intros nb []. }
  assert (Hnb : 0 <= nb < N) by (apply Hin; left; reflexivity). assert (Ne : nb <> cur) by (intros ->; apply Nc; left; reflexivity).
  assert (Nc' : ~ In cur l) by (intros H; apply Nc; right; exact H). assert (Hin' : forall nb, In nb l -> 0 <= nb < N) by (intros; apply Hin; right; assumption).
  cbn [fold_opt]. unfold ws_neighbor at 1. rewrite (rd_znth 0 ws nb), (rd_znth 0 lbl cur), (rd_znth 0 lbl nb) by lia. cbn [option_bind filter]. unfold first_label in *. cbn [find].
  destruct (Z.eqb_spec ws # nb C) as [Ec|Ec].
  { replace (ws # nb =? L) with false by lia. cbn [option_bind].
    destruct (IH Nc' Hin' lbl ws (tmp ++ [nb]) Ll Lw ltac:(intros; apply Hz; [right|]; assumption)) as (lbl' & ws' & F & A1 & A2 & A3 & A4 & A5).
    exists lbl', ws'. rewrite <- app_assoc in F. split; [exact F|]. split; [exact A1|]. split; [exact A2|]. split; [exact A3|]. split; [exact A4|].
    destruct A5 as [(A5 & A6)|(A5 & A6)]; [left|right]; (split; [exact A5|]).
    - intros nb' [<-|Hi] Hl; [lia|]. apply A6; assumption.
    - destruct A6 as [A6|(nb' & Hi & Hl)]; [left; exact A6|]. right. exists nb'. split; [right; exact Hi|exact Hl]. }
  destruct (Z.eqb_spec ws # nb L) as [El|El].
  2:{ cbn [option_bind]. destruct (IH Nc' Hin' lbl ws tmp Ll Lw ltac:(intros; apply Hz; [right|]; assumption)) as (lbl' & ws' & F & A1 & A2 & A3 & A4 & A5).
    exists lbl', ws'. split; [exact F|]. split; [exact A1|]. split; [exact A2|]. split; [exact A3|]. split; [exact A4|].
    destruct A5 as [(A5 & A6)|(A5 & A6)]; [left|right]; (split; [exact A5|]).
    - intros nb' [<-|Hi] Hl; [lia|]. apply A6; assumption.
    - destruct A6 as [A6|(nb' & Hi & Hl)]; [left; exact A6|]. right. exists nb'. split; [right; exact Hi|exact Hl]. }
  pose proof (Hz nb (or_introl eq_refl) El) as Hnz. destruct (Z.eqb_spec lbl # cur 0) as [E0|E0].
  - rewrite wr_upd by lia. cbn [option_bind].
    assert (X : forall p, (upd lbl cur lbl # nb) # p = if p =? cur then lbl # nb else lbl # p) by (intros p; apply znth_upd'; lia).
    destruct (IH Nc' Hin' (upd lbl cur lbl # nb) ws tmp ltac:(rewrite upd_length; exact Ll) Lw) as (lbl' & ws' & F & A1 & A2 & A3 & A4 & A5).
    { intros nb' Hi Hl. rewrite X. replace (nb' =? cur) with false by (assert (nb' <> cur) by (intros ->; contradiction); lia). apply Hz; [right; exact Hi|exact Hl]. }
    rewrite X, Z.eqb_refl in A4. replace (lbl # nb =? 0) with false in A4 by lia.
    exists lbl', ws'. split; [exact F|]. split; [exact A1|]. split; [exact A2|]. split; [|split; [exact A4|]].
    { intros p Hp. destruct (A3 p Hp) as (B1 & B2). rewrite X in B1. replace (p =? cur) with false in B1 by lia. auto. }
    destruct A5 as [(A5 & A6)|(A5 & A6)]; [left|right]; (split; [exact A5|]).
    + intros nb' [<-|Hi] Hl; [congruence|]. specialize (A6 nb' Hi Hl). rewrite X in A6. replace (nb' =? cur) with false in A6 by (assert (nb' <> cur) by (intros ->; contradiction); lia). exact A6.
    + destruct A6 as [A6|(nb' & Hi & Hl & Hx)]; [left; exact A6|]. right. exists nb'. split; [right; exact Hi|]. split; [exact Hl|]. rewrite X in Hx. replace (nb' =? cur) with false in Hx by (assert (nb' <> cur) by (intros ->; contradiction); lia). exact Hx.
  - destruct (Z.eqb_spec lbl # cur lbl # nb) as [E1|E1]; cbn [negb].
    + cbn [option_bind]. destruct (IH Nc' Hin' lbl ws tmp Ll Lw ltac:(intros; apply Hz; [right|]; assumption)) as (lbl' & ws' & F & A1 & A2 & A3 & A4 & A5).
      replace (lbl # cur =? 0) with false in A4 by lia.
      exists lbl', ws'. split; [exact F|]. split; [exact A1|]. split; [exact A2|]. split; [exact A3|]. split; [exact A4|].
      destruct A5 as [(A5 & A6)|(A5 & A6)]; [left|right]; (split; [exact A5|]).
      * intros nb' [<-|Hi] Hl; [congruence|]. apply A6; assumption.
      * destruct A6 as [A6|(nb' & Hi & Hl)]; [left; exact A6|]. right. exists nb'. split; [right; exact Hi|exact Hl].
    + rewrite wr_upd by lia. cbn [option_bind].
      assert (X : forall p, (upd ws cur W) # p = if p =? cur then W else ws # p) by (intros p; apply znth_upd'; lia).
      assert (X' : forall p, In p l -> (upd ws cur W) # p = ws # p) by (intros p Hi; rewrite X; replace (p =? cur) with false by (assert (p <> cur) by (intros ->; contradiction); lia); reflexivity).
      destruct (IH Nc' Hin' lbl (upd ws cur W) tmp Ll ltac:(rewrite upd_length; exact Lw)) as (lbl' & ws' & F & A1 & A2 & A3 & A4 & A5).
      { intros nb' Hi Hl. rewrite X' in Hl by exact Hi. apply Hz; [right; exact Hi|exact Hl]. }
      replace (lbl # cur =? 0) with false in A4 by lia.
      exists lbl', ws'. split; [|split; [exact A1|split; [exact A2|split; [|split; [exact A4|]]]]].
      * rewrite F. rewrite (filter_ext_in (fun nb => (upd ws cur W) # nb =? C) (fun nb => ws # nb =? C)); [reflexivity|]. intros p Hi. rewrite X' by exact Hi. reflexivity.
      * intros p Hp. destruct (A3 p Hp) as (B1 & B2). rewrite X in B2. replace (p =? cur) with false in B2 by lia. auto.
      * right. split.
        -- rewrite X, Z.eqb_refl in A5. destruct A5 as [(A5 & _)|(A5 & _)]; exact A5.
        -- right. exists nb. split; [left; reflexivity|]. split; [exact El|]. rewrite A4. congruence.
Qed.

Lemma ws_pushes l : NoDup l -> (forall p, In p l -> 0 <= p < N) -> forall ws q r, Z.of_nat (length ws) = N -> (forall p, In p l -> ws # p = C) -> hq_ok t false q r -> Z.of_nat (length r + length l) < 2 ^ 63 ->
  exists ws' q', fold_opt (ws_push t px) l (ws, q) = Some (ws', q') /\ Z.of_nat (length ws') = N /\ hq_ok t false q' (r ++ map (fun p => (px # p, p)) l) /\
    (forall p, In p l -> ws' # p = Q) /\ (forall p, ~ In p l -> ws' # p = ws # p) /\ count C ws = (length l + count C ws')%nat.
Proof.
  intros ND. pose proof stats_distinct as D. induction ND as [|a l Hn ND IH]; intros Hin ws q r Lw Hc Hq Big.
  { exists ws, q. cbn. rewrite app_nil_r. split; [reflexivity|]. split; [exact Lw|]. split; [exact Hq|]. split; [intros p []|]. split; [auto|]. reflexivity. }
  assert (Ha : 0 <= a < N) by (apply Hin; left; reflexivity). cbn [fold_opt]. unfold ws_push at 1. cbn [fst snd]. rewrite (rd_znth 0 px a) by lia. cbn [option_bind].
  destruct (hq_push_ok t false q r px # a a Hq) as (q1 & Eq & Q1); [apply typed_at with (l := px); auto; lia|cbn [length] in Big; lia|]. rewrite Eq. cbn [option_bind]. rewrite wr_upd by lia. cbn [option_bind].
  assert (X : forall p, (upd ws a Q) # p = if p =? a then Q else ws # p) by (intros p; apply znth_upd'; lia).
  destruct (IH ltac:(intros; apply Hin; right; assumption) (upd ws a Q) q1 (r ++ [(px # a, a)]) ltac:(rewrite upd_length; exact Lw)) as (ws' & q' & F & A1 & A2 & A3 & A4 & A5).
  - intros p Hi. rewrite X. replace (p =? a) with false by (assert (p <> a) by (intros ->; contradiction); lia). apply Hc. right. exact Hi.
  - exact Q1.
  - rewrite app_length. cbn [length] in *. lia.
  - exists ws', q'. rewrite <- app_assoc in A2. split; [exact F|]. split; [exact A1|]. split; [exact A2|]. split; [|split].
    + intros p [<-|Hi]; [|apply A3; exact Hi]. rewrite A4 by exact Hn. rewrite X, Z.eqb_refl. reflexivity.
    + intros p Hi. rewrite A4 by (intros H; apply Hi; right; exact H). rewrite X. replace (p =? a) with false by (assert (p <> a) by (intros ->; apply Hi; left; reflexivity); lia). reflexivity.
    + rewrite (count_upd C ws a Q) by (try lia; apply Hc; left; reflexivity). cbn [length]. lia.
Qed.

Inductive ipath (lbl : list Z) (l : Z) : Z -> Prop :=
| ipath0 p : 0 <= p < N -> m # p = l -> ipath lbl l p
| ipath_step p nb : ipath lbl l p -> covers se s nb p -> lbl # nb = l -> ipath lbl l nb.

Lemma ipath_mono lbl lbl' l p : l <> 0 -> (forall q, lbl # q <> 0 -> lbl' # q = lbl # q) -> ipath lbl l p -> ipath lbl' l p.
Proof. intros Hl H B. induction B as [p Hp Hm|p nb B IH Cv Hb]; [constructor; auto|]. eapply ipath_step; eauto. rewrite H; [exact Hb|lia]. Qed.

Definition status (lbl ws : list Z) (r : list (Z * Z)) (p : Z) : Prop :=
  (ws # p = L /\ lbl # p <> 0) \/
  (ws # p = Q /\ lbl # p = 0 /\ queued r p /\ exists q, covers se s p q /\ ws # q = L /\ ~ queued r q) \/
  (ws # p = C /\ lbl # p = 0 /\ ~ queued r p /\ forall q, covers se s q p -> ws # q = L -> queued r q) \/
  (ws # p = W /\ lbl # p <> 0 /\ ~ queued r p /\ exists q, covers se s q p /\ lbl # q <> 0 /\ lbl # q <> lbl # p).

(** Pixels reached from a marker below level [h] through pixels outside the lines. *)
Inductive obelow (ws : list Z) (h : Z) : Z -> Prop :=
| ob0 p : 0 <= p < N -> m # p <> 0 -> px # p < h -> obelow ws h p
| ob_step p nb : obelow ws h p -> ws # p = L -> covers se s nb p -> px # nb < h -> obelow ws h nb.

Lemma obelow_lt ws h p : obelow ws h p -> px # p < h.
Proof. intros B. destruct B; assumption. Qed.

Lemma obelow_mono ws h h' p : h <= h' -> obelow ws h p -> obelow ws h' p.
Proof. clear. intros Hh B. induction B as [p Hp Hm Hv|p nb B IH Hl Cv Hv]; [apply ob0; auto; lia|]. eapply ob_step; eauto; lia. Qed.

(** Pixels reached from a marker at level [h] through pixels of the same label outside the lines. *)
Inductive lpath (lbl ws : list Z) (r : list (Z * Z)) (l h : Z) : Z -> Prop :=
| lpath0 p : 0 <= p < N -> m # p = l -> px # p <= h -> ws # p = L -> ~ queued r p -> lpath lbl ws r l h p
| lpath_step p nb : lpath lbl ws r l h p -> covers se s nb p -> px # nb <= h -> lbl # nb = l -> ws # nb = L -> ~ queued r nb -> lpath lbl ws r l h nb.

Lemma lpath_mono lbl ws r lbl' ws' r' l h h' p : l <> 0 -> (forall q, lbl # q <> 0 -> lbl' # q = lbl # q) -> (forall q, ws # q = L -> ~ queued r q -> ws' # q = L /\ ~ queued r' q) -> h <= h' ->
  lpath lbl ws r l h p -> lpath lbl' ws' r' l h' p.
Proof.
  clear. intros Hl H1 H2 Hh B. induction B as [p Hp Hm Hv Hw Hq|p nb B IH Cv Hv Hb Hw Hq]; destruct (H2 _ Hw Hq) as (A1 & A2); [apply lpath0; auto; lia|].
  eapply lpath_step; eauto; [lia|]. rewrite H1; [exact Hb|congruence].
Qed.

Record winv (h : Z) (lbl ws : list Z) (q : hqueue) (r : list (Z * Z)) : Prop := {
  w_lbl : Z.of_nat (length lbl) = N;
  w_ws : Z.of_nat (length ws) = N;
  w_q : hq_ok t false q r;
  w_nd : NoDup (map snd r);
  w_tok : forall p, queued r p -> 0 <= p < N;
  w_mq : forall p, ws # p = L -> queued r p -> m # p <> 0;
  w_key : forall v p, In (v, p) r -> v = px # p;
  w_st : forall p, 0 <= p < N -> status lbl ws r p;
  w_sep : forall p q, ws # p = L -> ~ queued r p -> covers se s q p -> ws # q = L -> lbl # q = lbl # p;
  w_mark : forall p, 0 <= p < N -> m # p <> 0 -> lbl # p = m # p;
  w_path : forall p, 0 <= p < N -> lbl # p <> 0 -> ipath lbl lbl # p p;
  w_low : forall p, obelow ws h p -> 0 <= p < N /\ lbl # p <> 0 /\ ~ queued r p;
  w_lev : forall p, 0 <= p < N -> ws # p = L -> ~ queued r p -> exists k, lpath lbl ws r lbl # p k p /\ ~ obelow ws k p /\ k <= h }.

Lemma ws_loop_ok fuel : forall h lbl ws q r, winv h lbl ws q r -> (length r + count C ws <= fuel)%nat -> Z.of_nat (length r + count C ws) < 2 ^ 63 ->
  exists h' lbl' ws' q', ws_loop fuel t se s px (WS lbl ws q) = Some (Some (WS lbl' ws' q')) /\ winv h' lbl' ws' q' [].
Proof.
  pose proof stats_distinct as (D1 & D2 & D3 & D4 & D5 & D6 & _).
  induction fuel as [|fuel IH]; intros h lbl ws q r IV Hf Big; cbn [ws_loop]; unfold hq_isEmpty; cbn [ws_q ws_lbl ws_px]; rewrite (ho_size _ _ _ _ (w_q _ _ _ _ _ IV)).
  - destruct r; [|cbn in Hf; lia]. cbn. eauto 8.
  - destruct r as [|e0 r0] eqn:Er; [cbn; eauto 8|]. rewrite <- Er in *. replace (Z.of_nat (length r) =? 0) with false by (rewrite Er; cbn; lia).
    destruct IV as [Ll Lw Hq ND Tok Mq Key St Sep Mk Pa Low Lev]. destruct (hq_pop_ok _ _ _ _ Hq) as (v & cur & q1 & r1 & Ep & Q1 & Sv & Ln); [rewrite Er; discriminate|].
    rewrite Ep. cbn [option_bind]. destruct (served_nodup _ _ _ _ Sv ND) as (ND1 & Nc & Rq).
    destruct (served_low v cur r r1 Sv) as (M1 & M2 & M3). pose proof (Key _ _ M1) as Ev. subst v.
    assert (Hc : 0 <= cur < N) by (apply Tok; apply Rq; left; reflexivity). assert (Qc : queued r cur) by (apply Rq; left; reflexivity).
    unfold ws_pixel. cbn [ws_lbl ws_px ws_q]. rewrite wr_upd by (clear - Lw Hc; lia). cbn [option_bind].
    destruct (flood_pixel_nbs (ws_neighbor t) se s cur Hs Hpts Hpl Hc) as (l & El & Enb & N1 & N2). rewrite El.
    destruct (nbs_distinct se s cur Hs Hpts Hd Hc) as (NDl & Ncl). rewrite <- Enb in NDl, Ncl.
    set (ws1 := upd ws cur L). assert (X : forall p, ws1 # p = if p =? cur then L else ws # p) by (intros p; apply znth_upd'; clear - Lw Hc; lia).
    assert (X' : forall p, p <> cur -> ws1 # p = ws # p) by (intros p Hp; rewrite X; replace (p =? cur) with false by (clear - Hp; lia); reflexivity).
    assert (Xl : forall p, In p l -> p <> cur) by (intros p Hi ->; contradiction).
    destruct (ws_scan cur l Hc Ncl ltac:(intros nb Hn; apply N1; exact Hn) lbl ws1 [] Ll ltac:(unfold ws1; rewrite upd_length; exact Lw)) as (lbl' & ws' & F & L1 & L2 & Same & Ecur & Wcur).
    { intros nb Hi Hl. rewrite X' in Hl by (apply Xl; exact Hi). destruct (St nb (proj1 (N1 nb Hi))) as [(_ & H)|[(H & _)|[(H & _)|(H & _)]]]; [exact H|congruence|congruence|congruence]. }
    rewrite F. cbn [option_bind app]. rewrite (rd_znth 0 ws' cur) by (clear - L2 Hc; lia). cbn [option_bind].
    assert (Wc : ws # cur = L \/ ws # cur = Q). { destruct (St cur Hc) as [(H & _)|[(H & _)|[(_ & _ & H & _)|(_ & _ & H & _)]]]; [left; exact H|right; exact H|contradiction|contradiction]. }
    (* the label of the current pixel *)
    assert (Hlab : lbl' # cur <> 0 /\ (lbl # cur <> 0 -> lbl' # cur = lbl # cur) /\ (lbl # cur = 0 -> exists nb, In nb l /\ ws # nb = L /\ lbl # nb = lbl' # cur)).
    { rewrite Ecur. destruct (Z.eqb_spec lbl # cur 0) as [E0|E0]; [|split; [exact E0|split; [auto|contradiction]]].
      destruct (St cur Hc) as [(_ & H)|[(_ & _ & _ & (p & Cp & Lp' & Np))|[(_ & _ & H & _)|(_ & _ & H & _)]]]; [contradiction| |contradiction|contradiction].
      assert (p <> cur) as Hne by (intros ->; contradiction). destruct (N2 p (Hsym _ _ Cp)) as [?|Hi]; [contradiction|].
      unfold first_label. destruct (find (fun nb => ws1 # nb =? L) l) as [nb|] eqn:Ef.
      - apply find_some in Ef as (Hin & Hl). apply Z.eqb_eq in Hl. rewrite X' in Hl by (apply Xl; exact Hin). split; [|split; [contradiction|exists nb; auto]].
        destruct (St nb (proj1 (N1 nb Hin))) as [(_ & H)|[(H & _)|[(H & _)|(H & _)]]]; [exact H|congruence|congruence|congruence].
      - exfalso. pose proof (find_none _ _ Ef p Hi) as Hz. cbv beta in Hz. rewrite X' in Hz by exact Hne. rewrite Lp', Z.eqb_refl in Hz. discriminate. }
    destruct Hlab as (Hnz & Hsame & Hnew).
    assert (Keep : forall p, lbl # p <> 0 -> lbl' # p = lbl # p). { intros p Hp. destruct (Z.eq_dec p cur) as [->|Hne]; [apply Hsame; exact Hp|apply Same; exact Hne]. }
    assert (Mk' : forall p, 0 <= p < N -> m # p <> 0 -> lbl' # p = m # p). { intros p Hp Hm. rewrite Keep; rewrite Mk by assumption; [reflexivity|exact Hm]. }
    assert (Pa' : forall p, 0 <= p < N -> lbl' # p <> 0 -> ipath lbl' lbl' # p p).
    { intros p Hp Hn. destruct (Z.eq_dec lbl # p 0) as [E0|E0].
      - destruct (Z.eq_dec p cur) as [->|Hne]; [|destruct (Same p Hne) as (E1 & _); congruence].
        destruct (Hnew E0) as (nb & Hi & Hl & Eb). apply ipath_step with nb; [|apply Hsym; apply N1; exact Hi|reflexivity].
        rewrite <- Eb. eapply ipath_mono; [|exact Keep|apply Pa]; [congruence|apply N1; exact Hi|congruence].
      - rewrite (Keep p E0). eapply ipath_mono; [exact E0|exact Keep|apply Pa; assumption]. }
    assert (Cnt : count C ws' = count C ws).
    { assert (Hcc : ws # cur <> C) by (destruct Wc; congruence). assert (Hcc1 : ws' # cur <> C) by (rewrite X, Z.eqb_refl in Wcur; destruct Wcur as [(-> & _)|(-> & _)]; congruence).
      assert (upd ws' cur L = upd ws cur L) as Eu. { apply list_eq_znth; [rewrite !upd_length; clear - Lw L2; lia|]. intros i Hi. rewrite upd_length in Hi. rewrite (znth_upd' 0 ws'), (znth_upd' 0 ws) by (clear - Lw L2 Hi Hc; lia). destruct (Z.eqb_spec i cur); [reflexivity|]. rewrite <- X' by assumption. apply Same. assumption. }
      rewrite <- (count_upd' C ws' cur L), <- (count_upd' C ws cur L), Eu; [reflexivity|clear - Lw Hc; lia|exact Hcc|congruence|clear - L2 Hc; lia|exact Hcc1|congruence]. }
    set (h' := Z.max h px # cur).
    (* pixels reached below the new level are done *)
    assert (Low1 : forall p, obelow ws h' p -> 0 <= p < N /\ lbl # p <> 0 /\ ~ queued r p).
    { unfold h'. destruct (Z.le_gt_cases px # cur h) as [Hle|Hgt]; [rewrite Z.max_l by exact Hle; exact Low|]. rewrite Z.max_r by (clear - Hgt; lia). intros p B.
      assert (Nq : forall p, px # p < px # cur -> ~ queued r p). { intros p' Hlt Hqp. apply in_map_iff in Hqp as ((w, p'') & Ep' & Hi). cbn in Ep'. subst p''. pose proof (M3 _ _ Hi) as Hle. rewrite (Key _ _ Hi) in Hle. clear - Hlt Hle; lia. }
      induction B as [p Hp Hm Hv|p nb B IHB Hl Cv Hv]; [split; [exact Hp|split; [rewrite Mk by assumption; exact Hm|apply Nq; exact Hv]]|].
      destruct (covers_range _ _ _ _ Cv) as (Hnb & _). split; [exact Hnb|]. split; [|apply Nq; exact Hv].
      destruct (St nb Hnb) as [(_ & H)|[(_ & _ & H & _)|[(_ & _ & _ & H)|(_ & H & _)]]]; [exact H|destruct (Nq nb Hv H)| |exact H].
      exfalso. destruct IHB as (_ & _ & IHB). apply IHB. apply H; [apply Hsym; exact Cv|exact Hl]. }
    destruct Wcur as [(Wl & Hall)|(Ww & Hex)].
    + (* not a line *)
      rewrite X, Z.eqb_refl in Wl. replace (ws' # cur =? W) with false by (clear - Wl D3; lia). cbn [negb].
      set (tmp := filter (fun nb => ws1 # nb =? C) l).
      assert (Ht' : forall p, In p tmp <-> In p l /\ ws # p = C).
      { intros p. unfold tmp. rewrite filter_In. split; intros (A & B); (split; [exact A|]); rewrite X' in * by (apply Xl; exact A); clear - B; lia. }
      assert (NDt : NoDup tmp) by (apply NoDup_filter; exact NDl).
      destruct (ws_pushes tmp NDt ltac:(intros p Hi; apply Ht' in Hi; apply N1; apply Hi) ws' q1 r1 L2) as (ws2 & q2 & F2 & L3 & Q2 & A1 & A2 & A3).
      { intros p Hi. apply Ht' in Hi as (Hi & Hcd). destruct (Same p (Xl p Hi)) as (_ & ->). rewrite X' by (apply Xl; exact Hi). exact Hcd. }
      { exact Q1. }
      { assert (Hlt : (length tmp <= length px)%nat). { apply NoDup_bound; [exact NDt|]. intros p Hi. apply Ht' in Hi as (Hi & _). rewrite Lp. apply N1. exact Hi. }
        assert (Hlr : (length (map snd r1) <= length px)%nat). { apply NoDup_bound; [exact ND1|]. intros p Hi. rewrite Lp. apply Tok. apply Rq. right. exact Hi. }
        rewrite map_length in Hlr. pose proof Hs as (_ & _ & _ & Hb). clear - Hlt Hlr Hb Lp; lia. }
      rewrite F2. cbn [option_bind].
      assert (Rq2 : forall p, queued (r1 ++ map (fun p => (px # p, p)) tmp) p <-> queued r1 p \/ In p tmp).
      { intros p. unfold queued. rewrite map_app, in_app_iff, map_map. cbn [snd]. rewrite map_id. reflexivity. }
      assert (Old : forall p, p <> cur -> ws2 # p = L -> ws # p = L).
      { intros p Hne Hl. destruct (in_dec Z.eq_dec p tmp) as [Hi|Hi]; [rewrite A1 in Hl by exact Hi; congruence|]. rewrite A2 in Hl by exact Hi. destruct (Same p Hne) as (_ & E). rewrite E, X' in Hl by exact Hne. exact Hl. }
      assert (Old' : forall p, p <> cur -> ~ In p tmp -> ws2 # p = ws # p). { intros p Hne Hi. rewrite A2 by exact Hi. destruct (Same p Hne) as (_ & ->). apply X'. exact Hne. }
      assert (Nct : ~ In cur tmp) by (intros Hi; apply Ht' in Hi; tauto).
      assert (Wc2 : ws2 # cur = L) by (rewrite A2 by exact Nct; exact Wl).
      assert (Nqc : ~ queued (r1 ++ map (fun p => (px # p, p)) tmp) cur) by (rewrite Rq2; tauto).
      assert (LL : forall p, ws # p = L -> ws2 # p = L). { intros p Hl. destruct (Z.eq_dec p cur) as [->|Hne]; [exact Wc2|]. rewrite Old'; [exact Hl|exact Hne|]. intros Hi. apply Ht' in Hi as (_ & Hi). congruence. }
      assert (Low2 : forall k p, k <= h' -> obelow ws2 k p -> obelow ws k p).
      { intros k p Hk B. induction B as [p Hp Hm Hv|p nb B IHB Hl Cv Hv]; [apply ob0; assumption|].
        apply ob_step with p; auto. destruct (Low1 p (obelow_mono _ _ _ _ Hk IHB)) as (_ & _ & Hn). apply Old; [intros ->; contradiction|exact Hl]. }
      assert (LLq : forall p, ws # p = L -> ~ queued r p -> ws2 # p = L /\ ~ queued (r1 ++ map (fun p => (px # p, p)) tmp) p).
      { intros p Hl Hn. split; [apply LL; exact Hl|]. rewrite Rq2. intros [Hx|Hx]; [apply Hn; apply Rq; right; exact Hx|apply Ht' in Hx as (_ & Hx); congruence]. }
      assert (IV' : winv h' lbl' ws2 q2 (r1 ++ map (fun p => (px # p, p)) tmp)).
      { constructor.
        - exact L1.
        - exact L3.
        - exact Q2.
        - rewrite map_app, map_map. cbn [snd]. rewrite map_id. apply NoDup_app'; [exact ND1|exact NDt|].
          intros p Hi Hi2. apply Ht' in Hi2 as (Hi2 & Hcd). assert (queued r p) as Hqp by (apply Rq; right; exact Hi).
          destruct (St p (proj1 (N1 p Hi2))) as [(H & _)|[(H & _)|[(_ & _ & H & _)|(H & _)]]]; [congruence|congruence|contradiction|congruence].
        - intros p Hqp. apply Rq2 in Hqp as [Hqp|Hi]; [apply Tok; apply Rq; right; exact Hqp|apply Ht' in Hi; apply N1; apply Hi].
        - intros p Hl Hqp. assert (p <> cur) as Hne by (intros ->; contradiction). apply Mq; [apply Old; assumption|]. apply Rq2 in Hqp as [Hqp|Hi]; [apply Rq; right; exact Hqp|]. rewrite A1 in Hl by exact Hi. congruence.
        - intros w p Hi. apply in_app_iff in Hi as [Hi|Hi]; [apply Key; apply M2; exact Hi|]. apply in_map_iff in Hi as (p' & E' & _). injection E' as <- <-. reflexivity.
        - intros p Hp. unfold status. rewrite Rq2. destruct (Z.eq_dec p cur) as [->|Hne]; [left; auto|].
          destruct (Same p Hne) as (Elb & _). rewrite Elb.
          destruct (in_dec Z.eq_dec p tmp) as [Hi|Hi].
          { right; left. rewrite A1 by exact Hi. split; [reflexivity|]. pose proof (proj1 (Ht' p) Hi) as (Hil & Hcd). split; [|split; [right; exact Hi|]].
            - destruct (St p Hp) as [(H & _)|[(H & _)|[(_ & H & _)|(H & _)]]]; [congruence|congruence|exact H|congruence].
            - exists cur. split; [apply N1; exact Hil|]. split; [exact Wc2|exact Nqc]. }
          rewrite Old' by assumption. destruct (St p Hp) as [(H1 & H2)|[(H1 & H2 & H3 & (o & O1 & O2 & O3))|[(H1 & H2 & H3 & H4)|(H1 & H2 & H3 & (o & O1 & O2 & O3))]]].
          + left. auto.
          + right; left. split; [exact H1|]. split; [exact H2|]. split; [left; apply Rq in H3 as [?|H3]; [contradiction|exact H3]|]. exists o. split; [exact O1|]. split; [apply LL; exact O2|].
            rewrite Rq2. intros [Ho|Ho]; [apply O3; apply Rq; right; exact Ho|apply Ht' in Ho as (_ & Ho); congruence].
          + right; right; left. split; [exact H1|]. split; [exact H2|]. split; [intros [Ho|Ho]; [apply H3; apply Rq; right; exact Ho|contradiction]|].
            intros o Co Lo. rewrite Rq2. destruct (Z.eq_dec o cur) as [->|Hno].
            * exfalso. apply Hi. apply Ht'. split; [|exact H1]. destruct (N2 p (Hsym _ _ Co)); [contradiction|assumption].
            * left. destruct (proj1 (Rq o) (H4 o Co (Old o Hno Lo))) as [?|Ho]; [contradiction|exact Ho].
          + right; right; right. split; [exact H1|]. split; [exact H2|]. split; [intros [Ho|Ho]; [apply H3; apply Rq; right; exact Ho|contradiction]|].
            exists o. split; [exact O1|]. rewrite Keep by exact O2. auto.
        - intros p o Hl Hqp Co Hlo. destruct (Z.eq_dec p cur) as [->|Hne].
          + destruct (Z.eq_dec o cur) as [->|Hno]; [reflexivity|]. destruct (N2 o Co) as [?|Hi]; [contradiction|]. destruct (Same o Hno) as (-> & _). apply Hall; [exact Hi|]. rewrite X' by exact Hno. apply Old; assumption.
          + destruct (Same p Hne) as (-> & _). pose proof (Old p Hne Hl) as Hl'. destruct (Z.eq_dec o cur) as [->|Hno].
            * destruct (N2 p (Hsym _ _ Co)) as [?|Hi]; [contradiction|]. symmetry. apply Hall; [exact Hi|]. rewrite X' by exact Hne. exact Hl'.
            * destruct (Same o Hno) as (-> & _). apply Sep; auto. intros Hx. apply Rq in Hx as [?|Hx]; [contradiction|]. apply Hqp. apply Rq2. left. exact Hx.
        - exact Mk'.
        - exact Pa'.
        - intros p B. destruct (Low1 p (Low2 h' p (Z.le_refl _) B)) as (B1 & B2 & B3). split; [exact B1|]. rewrite Keep by exact B2. split; [exact B2|].
          rewrite Rq2. intros [Hx|Hx]; [apply B3; apply Rq; right; exact Hx|]. apply Ht' in Hx as (_ & Hx). destruct (St p B1) as [(H & _)|[(H & _)|[(_ & H & _)|(H & _)]]]; [congruence|congruence|contradiction|congruence].
        - intros p Hp Hl Hqp. destruct (Z.eq_dec p cur) as [->|Hne].
          + destruct (Z.eq_dec m # cur 0) as [Em|Em].
            * destruct (St cur Hc) as [(H1 & H2)|[(_ & _ & _ & (o & O1 & O2 & O3))|[(_ & _ & H & _)|(_ & _ & H & _)]]]; [| |contradiction|contradiction].
              { exfalso. apply (Mq cur H1 Qc). exact Em. }
              assert (o <> cur) as Hno by (intros ->; contradiction). destruct (N2 o (Hsym _ _ O1)) as [?|Hi]; [contradiction|].
              assert (Eo : lbl # o = lbl' # cur) by (apply Hall; [exact Hi|rewrite X' by exact Hno; exact O2]).
              destruct (Lev o ltac:(apply (covers_range _ _ _ _ O1)) O2 O3) as (k & K1 & K2 & K3). exists h'. split; [|split; [|apply Z.le_refl]].
              -- apply lpath_step with o; [|exact O1|unfold h'; clear; lia|reflexivity|exact Hl|exact Hqp]. rewrite <- Eo. eapply lpath_mono; [congruence|exact Keep|exact LLq| |exact K1]. unfold h'. clear - K3; lia.
              -- intros B. apply Low2 in B; [|apply Z.le_refl]. apply Low1 in B. tauto.
            * exists (px # cur). split; [|split; [intros B; apply obelow_lt in B; clear - B; lia|unfold h'; clear; lia]]. apply lpath0; auto; [|apply Z.le_refl]. symmetry. apply Mk'; assumption.
          + pose proof (Old p Hne Hl) as Hlo. assert (Hn : ~ queued r p) by (intros Hx; apply Rq in Hx as [?|Hx]; [contradiction|]; apply Hqp; apply Rq2; left; exact Hx).
            destruct (Lev p Hp Hlo Hn) as (k & K1 & K2 & K3). exists k. destruct (Same p Hne) as (Elb & _). rewrite Elb. split; [|split; [|unfold h'; clear - K3; lia]].
            * eapply lpath_mono; [|exact Keep|exact LLq|apply Z.le_refl|exact K1]. destruct (St p Hp) as [(_ & H)|[(H & _)|[(H & _)|(H & _)]]]; [exact H|congruence|congruence|congruence].
            * intros B. apply K2. apply Low2; [unfold h'; clear - K3; lia|exact B]. }
      destruct (IH _ _ _ _ _ IV') as (h2 & lb & w & q3 & F3 & G).
      { rewrite app_length, map_length. clear - Hf Ln A3 Cnt; lia. }
      { rewrite app_length, map_length. clear - Big Ln A3 Cnt; lia. }
      exists h2, lb, w, q3. split; [exact F3|exact G].
    + (* a line *)
      rewrite Ww, Z.eqb_refl. cbn [negb option_bind].
      assert (Ex : exists nb, In nb l /\ ws # nb = L /\ lbl # nb <> lbl' # cur).
      { destruct Hex as [Hx|(nb & Hi & Hl & Hx)]; [rewrite X, Z.eqb_refl in Hx; congruence|]. exists nb. rewrite X' in Hl by (apply Xl; exact Hi). auto. }
      assert (Old : forall p, p <> cur -> ws' # p = ws # p). { intros p Hne. destruct (Same p Hne) as (_ & ->). apply X'. exact Hne. }
      assert (Old2 : forall p, ws' # p = L -> p <> cur /\ ws # p = L).
      { intros p Hl. assert (p <> cur) as Hne by (intros ->; congruence). split; [exact Hne|]. rewrite <- Old by exact Hne. exact Hl. }
      assert (Low2 : forall k p, obelow ws' k p -> obelow ws k p).
      { intros k p B. induction B as [p Hp Hm Hv|p nb B IHB Hl Cv Hv]; [apply ob0; assumption|]. apply ob_step with p; auto. apply Old2; exact Hl. }
      assert (LLq : forall p, ws # p = L -> ~ queued r p -> ws' # p = L /\ ~ queued r1 p).
      { intros p Hl Hn. rewrite Old by (intros ->; contradiction). split; [exact Hl|]. intros Hx. apply Hn. apply Rq. right. exact Hx. }
      assert (IV' : winv h' lbl' ws' q1 r1).
      { constructor.
        - exact L1.
        - exact L2.
        - exact Q1.
        - exact ND1.
        - intros p Hqp. apply Tok. apply Rq. right. exact Hqp.
        - intros p Hl Hqp. apply Mq; [apply Old2; exact Hl|]. apply Rq. right. exact Hqp.
        - intros w p Hi. apply Key. apply M2. exact Hi.
        - intros p Hp. unfold status. destruct (Z.eq_dec p cur) as [->|Hne].
          { right; right; right. split; [exact Ww|]. split; [exact Hnz|]. split; [exact Nc|]. destruct Ex as (nb & Hi & Hl & Hx). exists nb. split; [apply N1; exact Hi|].
            destruct (Same nb (Xl nb Hi)) as (-> & _). split; [|exact Hx]. destruct (St nb (proj1 (N1 nb Hi))) as [(_ & H)|[(H & _)|[(H & _)|(H & _)]]]; [exact H|congruence|congruence|congruence]. }
          destruct (Same p Hne) as (Elb & _). rewrite Elb, Old by exact Hne.
          destruct (St p Hp) as [(H1 & H2)|[(H1 & H2 & H3 & (o & O1 & O2 & O3))|[(H1 & H2 & H3 & H4)|(H1 & H2 & H3 & (o & O1 & O2 & O3))]]].
          + left. auto.
          + right; left. split; [exact H1|]. split; [exact H2|]. split; [apply Rq in H3 as [?|H3]; [contradiction|exact H3]|]. exists o. split; [exact O1|].
            rewrite Old by (intros ->; contradiction). split; [exact O2|]. intros Ho. apply O3. apply Rq. right. exact Ho.
          + right; right; left. split; [exact H1|]. split; [exact H2|]. split; [intros Ho; apply H3; apply Rq; right; exact Ho|].
            intros o Co Lo. destruct (Z.eq_dec o cur) as [->|Hno]; [congruence|]. rewrite Old in Lo by exact Hno. destruct (proj1 (Rq o) (H4 o Co Lo)) as [?|Ho]; [contradiction|exact Ho].
          + right; right; right. split; [exact H1|]. split; [exact H2|]. split; [intros Ho; apply H3; apply Rq; right; exact Ho|].
            exists o. split; [exact O1|]. rewrite Keep by exact O2. auto.
        - intros p o Hl Hqp Co Hlo. assert (p <> cur) as Hne by (intros ->; congruence). assert (o <> cur) as Hno by (intros ->; congruence).
          destruct (Same p Hne) as (-> & _). destruct (Same o Hno) as (-> & _). rewrite Old in Hl, Hlo by assumption. apply Sep; auto. intros Hx. apply Rq in Hx as [?|Hx]; contradiction.
        - exact Mk'.
        - exact Pa'.
        - intros p B. destruct (Low1 p (Low2 h' p B)) as (B1 & B2 & B3). split; [exact B1|]. rewrite Keep by exact B2. split; [exact B2|]. intros Hx. apply B3. apply Rq. right. exact Hx.
        - intros p Hp Hl Hqp. destruct (Old2 p Hl) as (Hne & Hlo). assert (Hn : ~ queued r p) by (intros Hx; apply Rq in Hx as [?|Hx]; contradiction).
          destruct (Lev p Hp Hlo Hn) as (k & K1 & K2 & K3). exists k. destruct (Same p Hne) as (Elb & _). rewrite Elb. split; [|split; [|unfold h'; clear - K3; lia]].
          + eapply lpath_mono; [|exact Keep|exact LLq|apply Z.le_refl|exact K1]. destruct (St p Hp) as [(_ & H)|[(H & _)|[(H & _)|(H & _)]]]; [exact H|congruence|congruence|congruence].
          + intros B. apply K2. apply Low2. exact B. }
      destruct (IH _ _ _ _ _ IV') as (h2 & lb & w & q3 & F3 & G); [clear - Hf Ln Cnt; lia|clear - Big Ln Cnt; lia|]. exists h2, lb, w, q3. split; [exact F3|exact G].
Qed.
End Lines.
