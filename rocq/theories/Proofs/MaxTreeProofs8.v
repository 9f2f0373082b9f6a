(** The max-tree: the criteria and the opened levels. *)
From Verif Require Export Proofs.MaxTreeProofs7.

Local Notation "l # i" := (znth 0 l i) (at level 9).

(** ** processMaxTree *)
Section process.
Variables (tr : mtree) (par : Z -> Z) (kids : Z -> list Z) (k : ckind) (stop : Z).
Local Notation lev := (znth 0 (mt_level tr)).
Hypothesis Hlens : length (mt_child tr) = length (mt_level tr) /\ length (mt_brother tr) = length (mt_level tr) /\ length (mt_crit tr) = length (mt_level tr).
Hypothesis Hpar : forall m, node tr m -> m <> 1 -> node tr (par m) /\ lev (par m) < lev m.
Hypothesis Hkids : forall m, node tr m -> sibs (znth 0 (mt_brother tr)) ((mt_child tr) # m) (kids m) /\ NoDup (kids m) /\
     forall c, In c (kids m) <-> node tr c /\ c <> 1 /\ par c = m.
Definition large (n : Z) : Prop := stop <= c_value k (@znth crit (0, 0) (mt_crit tr) n).

Lemma process_ok fuel : forall l f c prev lut, frep tr kids l f -> sibs (znth 0 (mt_brother tr)) c l -> NoDup (labels f) ->
  length lut = length (mt_level tr) -> (length (labels f) < fuel)%nat ->
  exists lut', mt_process fuel k tr c prev stop lut = Some (Some lut') /\ length lut' = length lut /\
    (forall x, In x (labels f) -> (lut' # x = prev \/ exists y, In y (labels f) /\ anc par y x /\ large y /\ lut' # x = lev y) /\
                                  (forall y, In y (labels f) -> anc par y x -> large y -> lev y <= lut' # x)) /\
    (forall x, ~ In x (labels f) -> lut' # x = lut # x).
Proof using Hkids Hpar Hlens.
  induction fuel as [|fuel IH]; intros l f c prev lut H Sb ND Ll F; [clear - F; lia|]. destruct Hlens as (L1 & L2 & L3).
  destruct H as [|n l cf r A B Hc Hr]; cbn [mt_process].
  - inversion Sb; subst. cbn [Z.eqb]. exists lut. split; [reflexivity|]. split; [reflexivity|]. split; [intros x []|reflexivity].
  - inversion Sb as [|n' l' Nn Sb' E1 E2]; subst n' l' c. replace (n =? 0) with false by (clear - Nn; lia).
    pose proof A as An. unfold node, curLabel in A. rewrite (rd_znth 0 (mt_level tr)) by (clear - A; lia). cbn [option_bind].
    rewrite (@rd_znth crit (0, 0) (mt_crit tr)) by (clear - A L3; lia). cbn [option_bind]. set (cl := if c_value k (@znth crit (0, 0) (mt_crit tr) n) <? stop then prev else lev n).
    rewrite wr_upd by (clear - A Ll; lia). cbn [option_bind].
    rewrite (rd_znth 0 (mt_child tr)) by (clear - A L1; lia). cbn [option_bind].
    cbn [labels] in ND, F. apply NoDup_cons_iff in ND as (Nin & ND). cbn [length] in F. rewrite app_length in F.
    destruct (Hkids n An) as (K1 & K2 & K3).
    assert (NoDup (labels cf)) as Nc. { clear - ND. induction (labels cf) as [|x lc IH]; [constructor|]. cbn in ND. apply NoDup_cons_iff in ND as (Nx & ND). constructor; [intros Hi; apply Nx; apply in_or_app; auto|apply IH; exact ND]. }
    assert (NoDup (labels r)) as Nr. { clear - ND. induction (labels cf) as [|x lc IH]; [exact ND|]. cbn in ND. apply NoDup_cons_iff in ND as (Nx & ND). apply IH; exact ND. }
    assert (forall x, In x (labels cf) -> ~ In x (labels r)) as Dj.
    { clear - ND. induction (labels cf) as [|y lc IH]; intros x Hx; [contradiction|]. cbn in ND. apply NoDup_cons_iff in ND as (Nx & ND). destruct Hx as [<- |Hx]; [intros Hi; apply Nx; apply in_or_app; auto|apply IH; assumption]. }
    destruct (IH _ cf ((mt_child tr) # n) cl (upd lut n cl) Hc K1 Nc) as (lut1 & E1 & Ll1 & X1 & O1); [rewrite upd_length; exact Ll|clear - F; lia|].
    rewrite E1. cbn [fuel_bind option_bind]. rewrite (rd_znth 0 (mt_brother tr)) by (clear - A L2; lia). cbn [option_bind]. rewrite upd_length in Ll1.
    destruct (IH _ r ((mt_brother tr) # n) prev lut1 Hr Sb' Nr) as (lut2 & E2 & Ll2 & X2 & O2); [clear - Ll Ll1; lia|clear - F; lia|].
    assert (Cdown : forall y x, In y (labels cf) -> anc par y x -> node tr x -> In x (labels cf)).
    { intros y x Hy Ha Px. apply (labels_spec tr par kids Hpar Hkids _ _ Hc) in Hy as (_ & n' & Hn' & Hy). apply (labels_spec tr par kids Hpar Hkids _ _ Hc). split; [exact Px|]. exists n'. split; [exact Hn'|]. eapply anc_trans; eassumption. }
    assert (Rdown : forall y x, In y (labels r) -> anc par y x -> node tr x -> In x (labels r)).
    { intros y x Hy Ha Px. apply (labels_spec tr par kids Hpar Hkids _ _ Hr) in Hy as (_ & n' & Hn' & Hy). apply (labels_spec tr par kids Hpar Hkids _ _ Hr). split; [exact Px|]. exists n'. split; [exact Hn'|]. eapply anc_trans; eassumption. }
    assert (Ndown : forall x, anc par n x -> node tr x -> x = n \/ In x (labels cf)).
    { intros x Ha Px. destruct (Z.eq_dec x n) as [|Nx]; [auto|]. right. destruct (anc_child tr par kids Hpar Hkids _ _ Ha Nx Px) as (n' & P1 & P2).
      apply (labels_spec tr par kids Hpar Hkids _ _ Hc). split; [exact Px|eauto]. }
    destruct (kids_labels tr par kids Hpar Hkids n cf An Hc) as (_ & _ & KL).
    assert (Lc : forall y, In y (labels cf) -> lev n < lev y).
    { intros y Hy. apply KL in Hy as (Py & Ha & Ne). destruct (anc_level (node tr) par lev Hpar _ _ Ha Py); [congruence|assumption]. }
    assert (Cl : (cl = prev /\ ~ large n) \/ (cl = lev n /\ large n)).
    { unfold cl, large. destruct (Z.ltb_spec (c_value k (@znth crit (0, 0) (mt_crit tr) n)) stop); [left|right]; split; try reflexivity; clear - H; lia. }
    assert (Ef : forall x, In x (labels (FCons n cf r)) <-> x = n \/ In x (labels cf) \/ In x (labels r)).
    { intros x. cbn [labels In]. rewrite in_app_iff. split; intros [Q|Q]; auto. }
    assert (Pn : forall x, In x (labels cf) \/ In x (labels r) -> node tr x).
    { intros x [Hx|Hx]; [apply (labels_spec tr par kids Hpar Hkids _ _ Hc) in Hx|apply (labels_spec tr par kids Hpar Hkids _ _ Hr) in Hx]; apply Hx. }
    assert (Nrn : ~ In n (labels r)) by (intros Hi; apply Nin; apply in_or_app; auto).
    assert (Ncn : ~ In n (labels cf)) by (intros Hi; apply Nin; apply in_or_app; auto).
    assert (V1 : lut2 # n = cl).
    { rewrite O2 by exact Nrn. rewrite O1 by exact Ncn. rewrite znth_upd' by (clear - A Ll; lia). rewrite Z.eqb_refl. reflexivity. }
    assert (V2 : forall x, In x (labels cf) -> lut2 # x = lut1 # x) by (intros x Hx; apply O2; apply Dj; exact Hx).
    exists lut2. split; [exact E2|]. split; [clear - Ll1 Ll2; lia|]. split.
    + intros x Hx. apply Ef in Hx as [-> |[Hx|Hx]].
      * rewrite V1. split.
        -- destruct Cl as [(-> & _)|(-> & Hl)]; [auto|]. right. exists n. split; [apply Ef; auto|]. split; [apply anc_self|]. auto.
        -- intros y Hy Ha Hl. apply Ef in Hy as [-> |[Hy|Hy]].
           ++ destruct Cl as [(_ & Nl)|(-> & _)]; [contradiction|apply Z.le_refl].
           ++ exfalso. apply Ncn. exact (Cdown y n Hy Ha An).
           ++ exfalso. apply Nrn. exact (Rdown y n Hy Ha An).
      * rewrite (V2 x Hx). destruct (X1 x Hx) as (I1 & I2). pose proof (Pn x (or_introl Hx)) as Px. pose proof (proj1 (KL x) Hx) as (_ & Hnx & _). split.
        -- destruct I1 as [I1|(y & Y1 & Y2 & Y3 & Y4)].
           ++ rewrite I1. destruct Cl as [(-> & _)|(-> & Hl)]; [auto|]. right. exists n. split; [apply Ef; auto|]. auto.
           ++ right. exists y. split; [apply Ef; auto|]. auto.
        -- intros y Hy Ha Hl. apply Ef in Hy as [-> |[Hy|Hy]].
           ++ destruct Cl as [(_ & Nl)|(Ec & _)]; [contradiction|]. destruct I1 as [I1|(y & Y1 & Y2 & Y3 & Y4)]; [rewrite I1, Ec; apply Z.le_refl|]. rewrite Y4. apply Z.lt_le_incl. apply Lc. exact Y1.
           ++ apply I2; assumption.
           ++ exfalso. apply (Dj x Hx). exact (Rdown y x Hy Ha Px).
      * destruct (X2 x Hx) as (I1 & I2). pose proof (Pn x (or_intror Hx)) as Px. split.
        -- destruct I1 as [I1|(y & Y1 & Y2 & Y3 & Y4)]; [auto|]. right. exists y. split; [apply Ef; auto|]. auto.
        -- intros y Hy Ha Hl. apply Ef in Hy as [-> |[Hy|Hy]].
           ++ exfalso. destruct (Ndown x Ha Px) as [-> |Q]; [contradiction|]. exact (Dj x Q Hx).
           ++ exfalso. exact (Dj x (Cdown y x Hy Ha Px) Hx).
           ++ apply I2; assumption.
    + intros x Hx. rewrite O2 by (intros Hi; apply Hx; apply Ef; auto). rewrite O1 by (intros Hi; apply Hx; apply Ef; auto).
      rewrite znth_upd' by (clear - A Ll; lia). destruct (Z.eqb_spec x n) as [-> |]; [exfalso; apply Hx; apply Ef; auto|reflexivity].
Qed.
End process.

(** ** Criteria of sets of pixels *)
Section criteria.
Variables (s : dims) (k : ckind).
Hypothesis Hs : int_sized s.
Local Notation N := (dw s * dh s * dd s).
Local Notation co := (co s).
Local Notation crit_of := (crit_of co k).
Definition coord (q : Z) : Z := let '(x, y, _) := co q in match k with CHeight => y | _ => x end.

Lemma co_voxel q : 0 <= q < N -> exists x y z, inside s x y z /\ q = voxel_offset (dw s) (dh s) x y z /\ co q = (x, y, z).
Proof using Hs.
  intros H. destruct (voxel_exists s q (int_small _ Hs) H) as (x & y & z & I & E). exists x, y, z. split; [exact I|]. split; [exact E|].
  unfold co, MaxTreeProofs5.co. rewrite E, coords_voxel by (exact I || apply int_small; exact Hs). reflexivity.
Qed.
Lemma coord_small q : 0 <= q < N -> 0 <= coord q < 2 ^ 30.
Proof using Hs.
  intros H. destruct (co_voxel q H) as (x & y & z & (Ix & Iy & _) & _ & E). unfold coord. rewrite E. destruct Hs as (A & B & _). destruct k; lia.
Qed.

Definition proper (c : crit) : Prop := match k with CArea => 0 <= fst c < 2 ^ 64 /\ snd c = 0 | _ => 0 <= fst c /\ snd c <= SIZE_MAX end.
Lemma update_eq c q : c_update k c (co q) = match k with CArea => (to_size (fst c + 1), 0) | _ => (Z.max (fst c) (coord q), Z.min (snd c) (coord q)) end.
Proof using. unfold c_update, coord. destruct (co q) as ((x & y) & z). destruct k; reflexivity. Qed.

Lemma crit_snoc l q : crit_of (l ++ [q]) = c_update k (crit_of l) (co q).
Proof using. unfold crit_of, MaxTreeProofs4.crit_of. rewrite fold_left_app. reflexivity. Qed.

Lemma crit_proper l : proper (crit_of l).
Proof using.
  induction l as [|q l IH] using rev_ind; [unfold proper, crit_of, MaxTreeProofs4.crit_of, SIZE_MAX; cbn; destruct k; cbn; lia|].
  rewrite crit_snoc, update_eq. unfold proper in *. destruct k; cbn [fst snd]; [|lia..]. split; [|reflexivity]. unfold to_size. apply Z.mod_pos_bound. lia.
Qed.

Lemma crit_app l1 l2 : crit_of (l1 ++ l2) = c_merge k (crit_of l1) (crit_of l2).
Proof using.
  induction l2 as [|q l2 IH] using rev_ind.
  - rewrite app_nil_r. pose proof (crit_proper l1) as P. unfold proper in P. destruct (crit_of l1) as (a & b). cbn [fst snd] in P.
    unfold crit_of, MaxTreeProofs4.crit_of, c_merge; cbn [fold_left c_reset fst snd]. destruct k; cbn [c_reset fst snd].
    + destruct P as (P & ->). rewrite Z.add_0_r, to_size_id by lia. reflexivity.
    + rewrite Z.max_l, Z.min_l by lia. reflexivity.
    + rewrite Z.max_l, Z.min_l by lia. reflexivity.
  - rewrite app_assoc, !crit_snoc, IH, !update_eq. unfold c_merge. destruct k; cbn [fst snd].
    + f_equal. unfold to_size. rewrite Zplus_mod_idemp_l, Zplus_mod_idemp_r. f_equal. lia.
    + f_equal; lia.
    + f_equal; lia.
Qed.

Lemma area_length l : k = CArea -> crit_of l = (to_size (Z.of_nat (length l)), 0).
Proof using.
  intros Ek. induction l as [|q l IH] using rev_ind; [unfold crit_of, MaxTreeProofs4.crit_of; rewrite Ek; reflexivity|].
  rewrite crit_snoc, update_eq, IH. rewrite Ek. cbn [fst]. f_equal. unfold to_size. rewrite Zplus_mod_idemp_l. f_equal. rewrite app_length. cbn [length]. lia.
Qed.

Lemma extent l : k <> CArea -> l <> [] -> (forall q, In q l -> 0 <= q < N) ->
  (exists q, In q l /\ coord q = fst (crit_of l)) /\ (exists q, In q l /\ coord q = snd (crit_of l)) /\
  forall q, In q l -> snd (crit_of l) <= coord q <= fst (crit_of l).
Proof using Hs.
  intros Ek. induction l as [|q l IH] using rev_ind; intros N0 Hl; [contradiction|]. clear N0.
  assert (crit_of (l ++ [q]) = (Z.max (fst (crit_of l)) (coord q), Z.min (snd (crit_of l)) (coord q))) as E by (rewrite crit_snoc, update_eq; destruct k; [contradiction|reflexivity..]).
  rewrite E. cbn [fst snd]. pose proof (coord_small q (Hl q ltac:(apply in_or_app; right; left; reflexivity))) as Cq.
  assert (In q (l ++ [q])) as Iq by (apply in_or_app; right; left; reflexivity).
  destruct l as [|p l'].
  - assert (crit_of [] = (0, SIZE_MAX)) as -> by (unfold crit_of, MaxTreeProofs4.crit_of; cbn; destruct k; [contradiction|reflexivity..]). unfold SIZE_MAX. cbn [fst snd app] in *.
    rewrite Z.max_r, Z.min_r by lia. split; [eauto|]. split; [eauto|]. intros x [<- |[]]. lia.
  - set (l := p :: l') in *. destruct IH as ((q1 & A1 & B1) & (q2 & A2 & B2) & C); [discriminate|intros x Hx; apply Hl; apply in_or_app; auto|].
    split; [|split].
    + destruct (Z.max_spec (fst (crit_of l)) (coord q)) as [(_ & ->)|(_ & ->)]; [eauto|]. exists q1. split; [apply in_or_app; auto|exact B1].
    + destruct (Z.min_spec (snd (crit_of l)) (coord q)) as [(_ & ->)|(_ & ->)]; [|eauto]. exists q2. split; [apply in_or_app; auto|exact B2].
    + intros x Hx. apply in_app_iff in Hx as [Hx|[<- |[]]]; [specialize (C x Hx)|]; lia.
Qed.

(** The attribute of a set of pixels is at least [n]. *)
Definition set_has (n : Z) (V : Z -> Prop) : Prop :=
  match k with
  | CArea => exists l, NoDup l /\ n <= Z.of_nat (length l) /\ forall q, In q l -> V q
  | _ => exists q q', V q /\ V q' /\ n <= coord q' - coord q + 1
  end.

Lemma crit_large n l : NoDup l -> l <> [] -> (forall q, In q l -> 0 <= q < N) -> (n <= c_value k (crit_of l) <-> set_has n (fun q => In q l)).
Proof using Hs.
  intros ND N0 Hl. destruct Hs as (Bw & Bh & Bd & Bn).
  assert (k = CArea -> n <= c_value k (crit_of l) <-> set_has n (fun q => In q l)) as GA.
  { intros Ek. rewrite area_length by exact Ek. unfold set_has. rewrite Ek. cbn [c_value fst].
    pose proof (NoDup_incl_length (l := l) (l' := zseq N) ND) as L. rewrite zseq_length in L by nia. specialize (L (fun q Hq => proj2 (zseq_In N q) (Hl q Hq))).
    rewrite to_size_id by lia. split.
    - intros H. exists l. auto.
    - intros (l' & ND' & H & I). pose proof (NoDup_incl_length (l := l') (l' := l) ND' I) as L'. lia. }
  assert (k <> CArea -> n <= c_value k (crit_of l) <-> set_has n (fun q => In q l)) as GH.
  { intros Ek. destruct (extent l Ek N0 Hl) as ((q1 & A1 & B1) & (q2 & A2 & B2) & C).
    pose proof (coord_small q1 (Hl q1 A1)) as C1. pose proof (coord_small q2 (Hl q2 A2)) as C2. pose proof (C q1 A1) as C3.
    assert (c_value k (crit_of l) = fst (crit_of l) - snd (crit_of l) + 1) as -> by (unfold c_value; destruct k; [contradiction|apply to_size_id; lia..]).
    assert (set_has n (fun q => In q l) <-> exists q q', In q l /\ In q' l /\ n <= coord q' - coord q + 1) as -> by (unfold set_has; destruct k; [contradiction|reflexivity..]).
    split.
    - intros H. exists q2, q1. split; [exact A2|]. split; [exact A1|]. lia.
    - intros (q & q' & I & I' & H). pose proof (C q I). pose proof (C q' I'). lia. }
  destruct k; [apply GA; reflexivity|apply GH; discriminate..].
Qed.

Lemma set_has_ext n V V' : (forall q, V q <-> V' q) -> set_has n V <-> set_has n V'.
Proof using.
  intros H. unfold set_has. destruct k.
  - split; intros (l & A & B & C); exists l; (split; [exact A|]; split; [exact B|]); intros q Hq; apply H; apply C; exact Hq.
  - split; intros (q & q' & A & B & C); exists q, q'; (split; [apply H; exact A|]; split; [apply H; exact B|exact C]).
  - split; intros (q & q' & A & B & C); exists q, q'; (split; [apply H; exact A|]; split; [apply H; exact B|exact C]).
Qed.

(** The totals of a forest. *)
Lemma ftot_own cr own f : (forall x, In x (labels f) -> znth (0, 0) cr x = crit_of (own x)) -> forall l, ftot k cr f (crit_of l) = crit_of (l ++ flat_map own (labels f)).
Proof using.
  induction f as [|n c IHc r IHr]; intros H l; cbn [ftot labels flat_map]; [rewrite app_nil_r; reflexivity|]. cbn [labels] in H.
  rewrite (H n (or_introl eq_refl)), IHc by (intros x Hx; apply H; right; apply in_or_app; auto). rewrite <- crit_app.
  rewrite IHr by (intros x Hx; apply H; right; apply in_or_app; auto). f_equal. rewrite flat_map_app, !app_assoc. reflexivity.
Qed.
End criteria.
