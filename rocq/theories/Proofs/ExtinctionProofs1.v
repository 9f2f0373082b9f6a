(** Extinction values: what the operations on the data of the basins do. *)
From Verif Require Export Model.Extinction Proofs.WatershedProofs.

Lemma all_of_length n v : 0 <= n -> Z.of_nat (length (all_of n v)) = n.
Proof. intros H. unfold all_of. rewrite map_length, zseq_length. lia. Qed.
Lemma all_of_at n v i : 0 <= i < n -> znth 0 (all_of n v) i = v.
Proof. intros H. apply znth_rd. unfold all_of. rewrite rd_map, rd_zseq by lia. reflexivity. Qed.
Lemma zseq_at n i : 0 <= i < n -> znth 0 (zseq n) i = i.
Proof. intros H. apply znth_rd. rewrite rd_zseq by lia. reflexivity. Qed.

Ltac vec := repeat (first [rewrite (rd_znth 0) by lia|rewrite wr_upd by lia]; cbn [option_bind]).

Section Data.
Context (k : criterion) (t t2 te : ity) (n : Z) (Hn : 0 <= n).
Local Notation "l # i" := (znth 0 l i) (at level 9).

(** All the tables have n + 1 entries. *)
Definition sized (b : basin_data) : Prop :=
  Z.of_nat (length (bd_equ b)) = n + 1 /\ Z.of_nat (length (bd_ext b)) = n + 1 /\ Z.of_nat (length (bd_areas b)) = n + 1 /\
  Z.of_nat (length (bd_min b)) = n + 1 /\ Z.of_nat (length (bd_vol b)) = n + 1 /\ Z.of_nat (length (bd_flood b)) = n + 1.

Lemma create_sized : sized (createBasins t (n + 1)).
Proof. unfold sized, createBasins. cbn [bd_equ bd_ext bd_areas bd_min bd_vol bd_flood]. rewrite zseq_length, !all_of_length by lia. repeat split; lia. Qed.

Definition put (l : list Z) (i v j : Z) : Z := if j =? i then v else l # j.

(** Insertion of a pixel. *)
Lemma insert_spec L v r b : sized b -> 0 <= r <= n -> exists b', insertPixel k L v r b = Some b' /\ sized b' /\ bd_equ b' = bd_equ b /\ bd_ext b' = bd_ext b /\
  (forall j, (bd_areas b') # j = put (bd_areas b) r (wrap UINT32 ((bd_areas b) # r + 1)) j) /\
  (k = ByVolume -> (forall j, (bd_vol b') # j = put (bd_vol b) r (wrap UINT32 ((bd_vol b) # r + (L - v))) j) /\ (forall j, (bd_flood b') # j = put (bd_flood b) r (Z.max L (bd_flood b) # r) j)) /\
  (k <> ByVolume -> forall j, (bd_min b') # j = put (bd_min b) r (Z.min v (bd_min b) # r) j).
Proof.
  intros (L1 & L2 & L3 & L4 & L5 & L6) Hr. unfold insertPixel. rewrite (rd_znth 0 (bd_areas b)) by lia. cbn [option_bind]. rewrite (wr_upd (bd_areas b)) by lia. cbn [option_bind].
  assert (V : k = ByVolume \/ k <> ByVolume) by (destruct k; [left; reflexivity|right; discriminate|right; discriminate]). destruct V as [->|V].
  - vec. eexists. split; [reflexivity|]. unfold sized. cbn [bd_equ bd_ext bd_areas bd_min bd_vol bd_flood]. rewrite !upd_length.
    split; [repeat split; assumption|]. split; [reflexivity|]. split; [reflexivity|].
    split; [intros; unfold put; apply znth_upd'; lia|]. split; [|congruence]. intros _. split; intros; unfold put; apply znth_upd'; lia.
  - assert (E2 : exists mi, (if v <? (bd_min b) # r then wr (bd_min b) r v else Some (bd_min b)) = Some mi /\ length mi = length (bd_min b) /\ forall j, mi # j = put (bd_min b) r (Z.min v (bd_min b) # r) j).
    { destruct (Z.ltb_spec v (bd_min b) # r).
      - rewrite wr_upd by lia. eexists. split; [reflexivity|]. split; [apply upd_length|]. intros j. rewrite znth_upd' by lia. unfold put. destruct (j =? r); lia.
      - eexists. split; [reflexivity|]. split; [reflexivity|]. intros j. unfold put. destruct (Z.eqb_spec j r) as [->|]; lia. }
    destruct E2 as (mi & E2 & Lm & Vm). exists (BD (bd_equ b) (bd_ext b) (upd (bd_areas b) r (wrap UINT32 ((bd_areas b) # r + 1))) mi (bd_vol b) (bd_flood b)).
    split; [destruct k; [congruence| |]; rewrite (rd_znth 0 (bd_min b)) by lia; cbn [option_bind]; rewrite E2; reflexivity|]. unfold sized. cbn [bd_equ bd_ext bd_areas bd_min bd_vol bd_flood]. rewrite upd_length, Lm.
    split; [repeat split; assumption|]. split; [reflexivity|]. split; [reflexivity|]. split; [intros; unfold put; apply znth_upd'; lia|]. split; [congruence|]. intros _. exact Vm.
Qed.

(** The equivalence table. *)
Lemma update_spec e f equ : Z.of_nat (length equ) = n + 1 -> equ # 0 <> e -> e <> f -> exists equ', updateEquTable n e f equ = Some equ' /\ Z.of_nat (length equ') = n + 1 /\
  forall i, 0 <= i <= n -> equ' # i = if equ # i =? e then f else equ # i.
Proof.
  intros Le H0 Hef. unfold updateEquTable. set (step := fun _ _ => _).
  assert (H : forall j, (Z.of_nat j <= n) -> exists equ', fold_opt step (map (Z.add 1) (zseq (Z.of_nat j))) equ = Some equ' /\ Z.of_nat (length equ') = n + 1 /\
    forall i, 0 <= i <= n -> equ' # i = if (i <=? Z.of_nat j) && (equ # i =? e) then f else equ # i).
  { induction j as [|j IH]; intros Hj.
    - exists equ. split; [reflexivity|]. split; [exact Le|]. intros i Hi. destruct (Z.leb_spec i (Z.of_nat 0)); [|reflexivity]. replace i with 0 by lia. replace (equ # 0 =? e) with false by lia. reflexivity.
    - destruct (IH ltac:(lia)) as (q & E & Lq & V). rewrite Nat2Z.inj_succ, <- Z.add_1_r, zseq_succ, map_app, fold_opt_app, E by lia. cbn [option_bind map fold_opt]. unfold step at 1.
      rewrite (rd_znth 0 q) by lia. cbn [option_bind]. replace (1 + Z.of_nat j) with (Z.of_nat j + 1) by lia.
      assert (Vj : q # (Z.of_nat j + 1) = equ # (Z.of_nat j + 1)) by (rewrite V by lia; replace (Z.of_nat j + 1 <=? Z.of_nat j) with false by lia; reflexivity). rewrite Vj.
      destruct (Z.eqb_spec equ # (Z.of_nat j + 1) e) as [Ee|Ee].
      + rewrite wr_upd by lia. cbn [option_bind]. eexists. split; [reflexivity|]. split; [rewrite upd_length; exact Lq|]. intros i Hi. rewrite znth_upd' by lia. destruct (Z.eqb_spec i (Z.of_nat j + 1)) as [->|Hne].
        * rewrite Ee, Z.eqb_refl. replace (Z.of_nat j + 1 <=? Z.of_nat j + 1) with true by lia. reflexivity.
        * rewrite V by exact Hi. replace (i <=? Z.of_nat j + 1) with (i <=? Z.of_nat j) by lia. reflexivity.
      + exists q. split; [reflexivity|]. split; [exact Lq|]. intros i Hi. rewrite V by exact Hi. destruct (Z.eqb_spec i (Z.of_nat j + 1)) as [->|Hne].
        * replace (equ # (Z.of_nat j + 1) =? e) with false by lia. rewrite !andb_false_r. reflexivity.
        * replace (i <=? Z.of_nat j + 1) with (i <=? Z.of_nat j) by lia. reflexivity. }
  destruct (H (Z.to_nat n) ltac:(lia)) as (q & E & Lq & V). rewrite Z2Nat.id in * by lia. exists q. split; [exact E|]. split; [exact Lq|]. intros i Hi. rewrite V by exact Hi. replace (i <=? n) with true by lia. reflexivity.
Qed.

(** The value that an eaten basin gets. *)
Definition data_value (L : Z) (b : basin_data) (e : Z) : Z :=
  match k with ByVolume => (bd_vol b) # e | ByArea => (bd_areas b) # e | ByDynamic => L - (bd_min b) # e end.
(** What makes a basin the eater. *)
Definition data_wins (b : basin_data) (eater eaten : Z) : Prop :=
  match k with ByVolume => (bd_vol b) # eaten <= (bd_vol b) # eater | ByArea => (bd_areas b) # eaten <= (bd_areas b) # eater | ByDynamic => (bd_min b) # eater <= (bd_min b) # eaten end.

Lemma merge_spec L l1 l2 b : sized b -> 0 <= l1 <= n -> 0 <= l2 <= n -> l1 <> l2 ->
  exists eater eaten b', mergeBasins k te L l1 l2 b = Some (eater, b') /\ ((eater = l1 /\ eaten = l2) \/ (eater = l2 /\ eaten = l1)) /\ sized b' /\
    data_wins b eater eaten /\ bd_equ b' = bd_equ b /\ bd_min b' = bd_min b /\ bd_flood b' = bd_flood b /\
    (forall j, (bd_areas b') # j = put (bd_areas b) eater (wrap UINT32 ((bd_areas b) # eater + (bd_areas b) # eaten)) j) /\
    (forall j, (bd_ext b') # j = put (bd_ext b) eaten (wrap te (data_value L b eaten)) j) /\
    (k = ByVolume -> forall j, (bd_vol b') # j = put (bd_vol b) eater (wrap UINT32 ((bd_vol b) # eater + (bd_vol b) # eaten)) j).
Proof.
  intros (L1 & L2 & L3 & L4 & L5 & L6) H1 H2 Hne. unfold mergeBasins.
  assert (E : exists w, first_wins k l1 l2 b = Some w /\ data_wins b (if w then l1 else l2) (if w then l2 else l1)).
  { unfold first_wins, data_wins. rewrite (rd_znth 0 (bd_areas b) l1), (rd_znth 0 (bd_areas b) l2) by lia. cbn [option_bind].
    destruct k; vec; (eexists; split; [reflexivity|]);
    match goal with |- context[if ?c then l1 else _] => destruct c eqn:Ec end; [apply orb_true_iff in Ec as [Ec|Ec]; [lia|apply andb_true_iff in Ec as [Ec _]; lia]|apply orb_false_iff in Ec as [Ec _]; lia
      |apply orb_true_iff in Ec as [Ec|Ec]; [lia|apply andb_true_iff in Ec as [Ec _]; lia]|apply orb_false_iff in Ec as [Ec _]; lia
      |apply orb_true_iff in Ec as [Ec|Ec]; [lia|apply andb_true_iff in Ec as [Ec _]; lia]|apply orb_false_iff in Ec as [Ec _]; lia]. }
  destruct E as (w & Ew & Hw). rewrite Ew. cbn [option_bind]. set (a := if w then l1 else l2) in *. set (e := if w then l2 else l1) in *.
  assert (Ha : 0 <= a <= n) by (unfold a; destruct w; lia). assert (He : 0 <= e <= n) by (unfold e; destruct w; lia).
  assert (Hae : (a = l1 /\ e = l2) \/ (a = l2 /\ e = l1)) by (unfold a, e; destruct w; auto).
  unfold data_value. unfold sized.
  destruct k; vec; exists a, e; eexists; (split; [reflexivity|]);
    cbn [bd_equ bd_ext bd_areas bd_min bd_vol bd_flood]; rewrite ?upd_length; (split; [exact Hae|]); (split; [repeat split; assumption|]); (split; [exact Hw|]); repeat (split; [reflexivity|]);
    (split; [intros; unfold put; apply znth_upd'; lia|]); (split; [intros; unfold put; apply znth_upd'; lia|]); (try (intros; discriminate)); intros _; intros; unfold put; apply znth_upd'; lia.
Qed.

Lemma process_spec L o1 o2 b g : sized b -> 0 <= o1 <= n -> 0 <= o2 <= n -> (forall i, 0 <= i <= n -> 0 <= (bd_equ b) # i <= n) -> (bd_equ b) # 0 = 0 ->
  (bd_equ b) # o1 <> 0 -> (bd_equ b) # o2 <> 0 -> (bd_equ b) # o1 <> (bd_equ b) # o2 ->
  exists eo do b' g', processMerge k te n L o1 o2 b g = Some (b', g') /\ ((eo = o1 /\ do = o2) \/ (eo = o2 /\ do = o1)) /\ sized b' /\
    let eater := (bd_equ b) # eo in let eaten := (bd_equ b) # do in
    data_wins b eater eaten /\ bd_min b' = bd_min b /\ bd_flood b' = bd_flood b /\
    (forall i, 0 <= i <= n -> (bd_equ b') # i = if (bd_equ b) # i =? eaten then eater else (bd_equ b) # i) /\
    (forall j, (bd_areas b') # j = put (bd_areas b) eater (wrap UINT32 ((bd_areas b) # eater + (bd_areas b) # eaten)) j) /\
    (forall j, (bd_ext b') # j = put (bd_ext b) eaten (wrap te (data_value L b eaten)) j) /\
    (k = ByVolume -> forall j, (bd_vol b') # j = put (bd_vol b) eater (wrap UINT32 ((bd_vol b) # eater + (bd_vol b) # eaten)) j) /\
    g' = match g with None => None | Some g => Some (addEdge g (Edge eo do (wrap te (data_value L b eaten))) true) end.
Proof.
  intros Sb H1 H2 Re E0 Z1 Z2 Hne. pose proof Sb as (L1 & L2 & L3 & L4 & L5 & L6). unfold processMerge. rewrite (rd_znth 0 (bd_equ b) o1), (rd_znth 0 (bd_equ b) o2) by lia. cbn [option_bind].
  replace ((bd_equ b) # o1 =? (bd_equ b) # o2) with false by lia.
  destruct (merge_spec L _ _ b Sb (Re o1 H1) (Re o2 H2) Hne) as (a & e & b1 & E & Hae & S1 & Hw & Q1 & Q2 & Q3 & V1 & V2 & V3). rewrite E. cbn [option_bind].
  pose proof S1 as (M1 & M2 & M3 & M4 & M5 & M6).
  assert (exists eo do, (eo = if a =? (bd_equ b) # o1 then o1 else o2) /\ (do = if a =? (bd_equ b) # o1 then o2 else o1) /\ e = (if a =? (bd_equ b) # o1 then (bd_equ b) # o2 else (bd_equ b) # o1) /\ (bd_equ b) # eo = a /\ (bd_equ b) # do = e /\ ((eo = o1 /\ do = o2) \/ (eo = o2 /\ do = o1))) as (eo & do & -> & -> & Ee & F1 & F2 & F3).
  { destruct Hae as [(-> & ->)|(-> & ->)].
    - rewrite Z.eqb_refl. exists o1, o2. auto 10.
    - replace ((bd_equ b) # o2 =? (bd_equ b) # o1) with false by lia. exists o2, o1. auto 10. }
  rewrite <- Ee. rewrite (rd_znth 0 (bd_ext b1) e) by (destruct Hae as [(_ & ->)|(_ & ->)]; pose proof (Re o1 H1); pose proof (Re o2 H2); lia). cbn [option_bind].
  destruct (update_spec e a (bd_equ b1)) as (equ & Eu & Lu & Vu); [exact M1|rewrite Q1; lia|lia|]. rewrite Eu. cbn [option_bind].
  eexists _, _, _, _. split; [reflexivity|]. split; [exact F3|]. cbn zeta. rewrite F1, F2. unfold sized. cbn [bd_equ bd_ext bd_areas bd_min bd_vol bd_flood].
  split; [repeat split; assumption|]. split; [exact Hw|]. split; [exact Q2|]. split; [exact Q3|]. split; [intros i Hi; rewrite Vu by exact Hi; rewrite Q1; reflexivity|].
  split; [exact V1|]. split; [exact V2|]. split; [exact V3|]. rewrite V2. unfold put. rewrite Z.eqb_refl. reflexivity.
Qed.

(** Raising the level. *)
Lemma raise_spec L i b : sized b -> 0 <= i <= n -> exists b', raiseLevel k L i b = Some b' /\ sized b' /\ bd_equ b' = bd_equ b /\ bd_ext b' = bd_ext b /\ bd_areas b' = bd_areas b /\ bd_min b' = bd_min b /\
  (k = ByVolume -> (forall j, (bd_vol b') # j = put (bd_vol b) i (if (bd_flood b) # i <? L then wrap UINT32 ((bd_vol b) # i + (bd_areas b) # i * (L - (bd_flood b) # i)) else (bd_vol b) # i) j) /\
     forall j, (bd_flood b') # j = put (bd_flood b) i (if (bd_flood b) # i <? L then L else (bd_flood b) # i) j).
Proof.
  intros Sb Hi. pose proof Sb as (L1 & L2 & L3 & L4 & L5 & L6). unfold raiseLevel.
  assert (V : k = ByVolume \/ k <> ByVolume) by (destruct k; [left; reflexivity|right; discriminate|right; discriminate]). destruct V as [->|V].
  - rewrite (rd_znth 0 (bd_flood b)) by lia. cbn [option_bind]. destruct ((bd_flood b) # i <? L) eqn:E.
    + vec. eexists. split; [reflexivity|]. unfold sized. cbn [bd_equ bd_ext bd_areas bd_min bd_vol bd_flood]. rewrite !upd_length.
      split; [repeat split; assumption|]. repeat (split; [reflexivity|]). intros _. split; intros; unfold put; apply znth_upd'; lia.
    + exists b. split; [reflexivity|]. split; [exact Sb|]. repeat (split; [reflexivity|]). intros _. split; intros j; unfold put; destruct (Z.eqb_spec j i) as [->|]; reflexivity.
  - exists b. split; [destruct k; congruence|]. split; [exact Sb|]. repeat (split; [reflexivity|]). congruence.
Qed.

Lemma raise_all fuel L : wrap UINT32 (n + 1) = n + 1 -> tmin t2 = 0 -> n < tmax t2 -> forall i b, sized b -> 1 <= i <= n + 1 -> (Z.to_nat (n + 1 - i) <= fuel)%nat ->
  exists b', raise_loop fuel k t2 n L i b = Some (Some b') /\ sized b' /\ bd_equ b' = bd_equ b /\ bd_ext b' = bd_ext b /\ bd_areas b' = bd_areas b /\ bd_min b' = bd_min b /\
  (k = ByVolume -> forall j, 0 <= j <= n -> let on := (i <=? j) && ((bd_equ b) # j =? j) && ((bd_flood b) # j <? L) in
     (bd_vol b') # j = (if on then wrap UINT32 ((bd_vol b) # j + (bd_areas b) # j * (L - (bd_flood b) # j)) else (bd_vol b) # j) /\ (bd_flood b') # j = (if on then L else (bd_flood b) # j)).
Proof.
  intros Hw H0 Hm. assert (Hwr : forall x, 0 <= x <= tmax t2 -> wrap t2 x = x). { intros x Hx. unfold wrap, tmax, tmin in *. destruct (is_signed t2) eqn:Es; [destruct t2; discriminate|]. apply Z.mod_small. lia. }
  induction fuel as [|fuel IH]; intros i b Sb Hi Hf; cbn [raise_loop]; rewrite Hw.
  - assert (i = n + 1) as -> by lia. replace (n + 1 <? n + 1) with false by lia. cbn [negb]. exists b. split; [reflexivity|]. split; [exact Sb|]. repeat (split; [reflexivity|]). intros _ j Hj. cbn zeta. replace (n + 1 <=? j) with false by lia. auto.
  - destruct (Z.ltb_spec i (n + 1)) as [Hlt|Hge]; cbn [negb].
    + pose proof Sb as (L1 & _). rewrite (rd_znth 0 (bd_equ b)) by lia. cbn [option_bind].
      assert (E : exists b1, (if (bd_equ b) # i =? i then raiseLevel k L i b else Some b) = Some b1 /\ sized b1 /\ bd_equ b1 = bd_equ b /\ bd_ext b1 = bd_ext b /\ bd_areas b1 = bd_areas b /\ bd_min b1 = bd_min b /\
        (k = ByVolume -> (forall j, (bd_vol b1) # j = put (bd_vol b) i (if ((bd_equ b) # i =? i) && ((bd_flood b) # i <? L) then wrap UINT32 ((bd_vol b) # i + (bd_areas b) # i * (L - (bd_flood b) # i)) else (bd_vol b) # i) j) /\
           forall j, (bd_flood b1) # j = put (bd_flood b) i (if ((bd_equ b) # i =? i) && ((bd_flood b) # i <? L) then L else (bd_flood b) # i) j)).
      { destruct ((bd_equ b) # i =? i).
        - apply raise_spec; [exact Sb|lia].
        - exists b. split; [reflexivity|]. split; [exact Sb|]. repeat (split; [reflexivity|]). intros _. split; intros j; unfold put; destruct (Z.eqb_spec j i) as [->|]; reflexivity. }
      destruct E as (b1 & E & S1 & Q1 & Q2 & Q3 & Q4 & V). rewrite E. cbn [option_bind]. rewrite Hwr by lia.
      destruct (IH (i + 1) b1 S1 ltac:(lia) ltac:(lia)) as (b' & E' & S' & R1 & R2 & R3 & R4 & V'). exists b'. split; [exact E'|]. split; [exact S'|].
      repeat (split; [congruence|]). intros Hk j Hj. cbn zeta. destruct (V Hk) as (VA & VB). destruct (V' Hk j Hj) as (VA' & VB'). rewrite VA', VB', Q1, Q3, !VA, !VB. unfold put.
      destruct (Z.eqb_spec j i) as [->|Hne].
      * replace (i + 1 <=? i) with false by lia. replace (i <=? i) with true by lia. cbn [andb]. auto.
      * replace (i + 1 <=? j) with (i <=? j) by lia. auto.
    + assert (i = n + 1) as -> by lia. exists b. split; [reflexivity|]. split; [exact Sb|]. repeat (split; [reflexivity|]). intros _ j Hj. cbn zeta. replace (n + 1 <=? j) with false by lia. auto.
Qed.

(** The last basin. *)
Definition last_value (L : Z) (b : basin_data) (r : Z) : Z :=
  match k with
  | ByVolume => wrap te ((bd_ext b) # r + wrap UINT32 ((bd_vol b) # r + (bd_areas b) # r))
  | ByArea => wrap te ((bd_ext b) # r + (bd_areas b) # r)
  | ByDynamic => wrap te (L - (bd_min b) # r)
  end.
Lemma finalize_spec L r b : sized b -> 0 <= r <= n -> exists b', finalize k te L r b = Some b' /\ sized b' /\ (forall j, (bd_ext b') # j = put (bd_ext b) r (last_value L b r) j).
Proof.
  intros (L1 & L2 & L3 & L4 & L5 & L6) Hr. unfold finalize, last_value, sized. rewrite (rd_znth 0 (bd_ext b)) by lia. cbn [option_bind].
  destruct k; vec; cbv zeta; vec; eexists; (split; [reflexivity|]);
    cbn [bd_equ bd_ext bd_areas bd_min bd_vol bd_flood]; rewrite ?upd_length; (split; [repeat split; assumption|]); intros; unfold put; apply znth_upd'; lia.
Qed.
End Data.
