(** The max-tree: nextHigherLabel, and the node of a new pixel. *)
From Verif Require Export Proofs.MaxTreeProofs2.

Local Notation "l # i" := (znth 0 l i) (at level 9).

Section node_step.
Variables (t : ity) (mv : Z).
Hypothesis Ht : t = UINT8 \/ t = UINT16.
Hypothesis Hmv : 0 <= mv.
Local Notation mts := (mts t mv).

Lemma mts_lower lam lab tr par kids lam' : mts lam lab tr par kids -> mv <= lam' <= lam -> lab # lam' <> 0 -> mts lam' lab tr par kids.
Proof using.
  intros [A B C D E F G H I J K] Hl N. constructor; try assumption; try lia.
  - intros j Hj. apply G; lia.
  - intros j j' Hj Hj'. apply J; lia.
Qed.

Lemma clear_labels a n lab : 0 <= a -> a + Z.max 0 n <= Z.of_nat (length lab) ->
  exists lab', fold_opt (fun l j => wr l j 0) (zrange a n) lab = Some lab' /\ length lab' = length lab /\
    forall j, lab' # j = if (a <=? j) && (j <? a + n) then 0 else lab # j.
Proof using.
  intros Ha. destruct (Z_le_dec 0 n) as [Hn|Hn].
  - revert Ha. revert n Hn. apply (natlike_ind (fun n => 0 <= a -> a + Z.max 0 n <= Z.of_nat (length lab) -> exists lab', fold_opt (fun l j => wr l j 0) (zrange a n) lab = Some lab' /\ length lab' = length lab /\ forall j, lab' # j = if (a <=? j) && (j <? a + n) then 0 else lab # j)).
    + intros Ha Hl. exists lab. rewrite zrange_nil by lia. split; [reflexivity|]. split; [reflexivity|]. intros j. replace ((a <=? j) && (j <? a + 0)) with false by lia. reflexivity.
    + intros n Hn IH Ha Hl. destruct (IH Ha ltac:(lia)) as (l1 & E1 & L1 & V1). 
      change (Z.succ n) with (n + 1) in *. rewrite zrange_snoc by lia. rewrite fold_opt_app, E1. cbn [option_bind fold_opt]. rewrite wr_upd by lia. cbn [option_bind].
      eexists; split; [reflexivity|]. rewrite upd_length. split; [exact L1|]. intros j. rewrite znth_upd' by lia. rewrite V1.
      destruct (Z.eqb_spec j (a + n)) as [-> |]; [replace ((a <=? a + n) && _) with true by lia; reflexivity|].
      replace ((a <=? j) && (j <? a + (n + 1))) with ((a <=? j) && (j <? a + n)) by lia. reflexivity.
  - intros Hl. exists lab. rewrite zrange_nil by lia. split; [reflexivity|]. split; [reflexivity|]. intros j. replace ((a <=? j) && (j <? a + n)) with false by lia. reflexivity.
Qed.

Lemma next_higher k lam lab tr par kids v lab0 : mts lam lab tr par kids -> lam < v <= tmax t -> curLabel tr < MAX_NODES ->
  length lab0 = length lab -> (forall j, lab0 # j = if (lam + 1 <=? j) && (j <? v) then 0 else lab # j) ->
  exists tr' par' kids', nextHigherLabel k lab0 tr lam v = Some (tr', curLabel tr) /\ grown k (curLabel tr) v tr par tr' par' /\
    mts v (upd lab0 v (curLabel tr)) tr' par' kids' /\ (forall x, x <> curLabel tr -> anc par' x (curLabel tr) -> anc par' x (lab # lam)) /\
    (forall y, node tr y -> ~ anc par' (curLabel tr) y).
Proof using Ht Hmv.
  intros S Hv HM El0 V0. pose proof S as [(L1 & L2 & L3) Cu Ll Hlam (R1 & R2) Top Lab Par Kids Sp Lvl]. pose proof (u816 t Ht) as (_ & TC & TM).
  set (n := curLabel tr) in *. assert (Z.of_nat (length (mt_level tr)) = n) as En by reflexivity.
  destruct (Lab lam ltac:(lia) Top) as (Na & La).
  assert (lab0 # lam = lab # lam) as Ea by (rewrite V0; replace ((lam + 1 <=? lam) && _) with false by lia; reflexivity).
  set (a := lab # lam) in *. unfold node in Na. fold n in Na.
  unfold nextHigherLabel. rewrite (rd_znth 0 lab0) by lia. rewrite Ea. cbn [option_bind].
  rewrite (rd_znth 0 (mt_child tr)) by lia. cbn [option_bind]. 
  unfold mt_new. fold n. replace (n >=? MAX_NODES) with false by lia. cbn [option_bind mt_child mt_brother mt_level mt_crit].
  rewrite wr_upd by (rewrite app_length; cbn [length]; lia). cbn [option_bind].
  set (b := (mt_child tr) # a) in *.
  assert (Cn : forall m, znth 0 (upd (mt_child tr ++ [0]) a n) m = if m =? a then n else if m =? n then 0 else (mt_child tr) # m).
  { intros m. rewrite znth_upd' by (rewrite app_length; cbn [length]; lia). rewrite znth_snoc. replace (Z.of_nat (length (mt_child tr))) with n by lia. reflexivity. }
  assert (Bn : forall m, znth 0 (mt_brother tr ++ [b]) m = if m =? n then b else (mt_brother tr) # m).
  { intros m. rewrite znth_snoc. replace (Z.of_nat (length (mt_brother tr))) with n by lia. reflexivity. }
  set (tr' := MT _ _ _ _).
  assert (Hcur : curLabel tr' = n + 1) by (unfold curLabel, tr'; cbn [mt_level]; rewrite app_length; cbn [length]; lia).
  assert (Ln : forall m, (mt_level tr') # m = if m =? n then v else (mt_level tr) # m).
  { intros m. unfold tr'. cbn [mt_level]. rewrite znth_snoc, En. reflexivity. }
  assert (Pn : ~ node tr n) by (unfold node; fold n; lia).
  assert (Pa : node tr a) by (unfold node; fold n; lia).
  set (par' := par_leaf par n a). set (kids' := fun m => if m =? a then n :: kids a else if m =? n then [] else kids m).
  assert (Kn : forall m, node tr m -> ~ In n (kids m)). { intros m Hm Hi. apply (Kids m Hm) in Hi as (Hi & _). contradiction. }
  assert (Pz : forall m, m <> n -> par' m = par m). { intros m Hm. unfold par', par_leaf. replace (m =? n) with false by lia. reflexivity. }
  assert (Pnn : par' n = a). { unfold par', par_leaf. rewrite Z.eqb_refl. reflexivity. }
  assert (Bel : forall y, node tr y -> ~ anc par' n y). { intros y Py. apply (leaf_below (node tr) par (znth 0 (mt_level tr))); assumption || lia. }
  exists tr', par', kids'. split; [reflexivity|]. split; [|split; [|split; [|exact Bel]]].
  - constructor.
    + reflexivity.
    + exact Hcur.
    + exact Ln.
    + intros m. unfold tr'. cbn [mt_crit]. rewrite znth_snoc. assert (Z.of_nat (length (mt_crit tr)) = n) as Ecr by lia. unfold crit in *. rewrite Ecr. reflexivity.
    + intros x y Py Nx. apply (leaf_old (node tr) par (znth 0 (mt_level tr))); assumption || lia.
    + left. exact Bel.
  - assert (NN : forall m, node tr' m <-> node tr m \/ m = n) by (intros m; unfold node; rewrite Hcur; fold n; lia).
    assert (Lup : forall j, znth 0 (upd lab0 v n) j = if j =? v then n else if (lam + 1 <=? j) && (j <? v) then 0 else lab # j).
    { intros j. rewrite znth_upd' by lia. rewrite V0. reflexivity. }
    assert (Lle : forall j, j <= lam -> znth 0 (upd lab0 v n) j = lab # j).
    { intros j Hj. rewrite Lup. replace (j =? v) with false by lia. replace (_ && _) with false by lia. reflexivity. }
    constructor.
    + unfold tr'. cbn. rewrite !upd_length, !app_length. cbn. lia.
    + lia.
    + rewrite upd_length. lia.
    + lia.
    + rewrite Lle, Ln by lia. replace (1 =? n) with false by lia. auto.
    + rewrite Lup, Z.eqb_refl. lia.
    + intros j Hj. destruct (Z.eq_dec j v) as [-> |].
      * rewrite Lup, Z.eqb_refl. intros _. split; [apply NN; auto|]. rewrite Ln, Z.eqb_refl. reflexivity.
      * destruct (Z_le_dec j lam).
        -- rewrite Lle by lia. intros N. destruct (Lab j ltac:(lia) N) as (A & B). split; [apply NN; auto|]. rewrite Ln. replace (_ =? _) with false; [exact B|]. unfold node in A. fold n in A. lia.
        -- rewrite Lup. replace (j =? v) with false by lia. replace (_ && _) with true by lia. lia.
    + intros m Hm N1. apply NN in Hm as [Hm| ->].
      * assert (m <> n) by (intros ->; contradiction). rewrite Pz by assumption. destruct (Par m Hm N1) as (A & B). split; [apply NN; auto|].
        rewrite !Ln. replace (m =? n) with false by lia. destruct (Z.eqb_spec (par m) n) as [E|]; [rewrite E in A; contradiction|exact B].
      * rewrite Pnn. split; [apply NN; auto|]. rewrite !Ln, Z.eqb_refl. replace (a =? n) with false by lia. lia.
    + intros m Hm. apply NN in Hm. unfold kids'. cbn [tr' mt_child mt_brother]. rewrite Cn. destruct (Z.eqb_spec m a) as [-> |Na'].
      * destruct (Kids a Pa) as (K1 & K2 & K3).
        split; [|split].
        -- constructor; [lia|]. rewrite Bn, Z.eqb_refl. eapply sibs_ext; [|exact K1].
           intros x Hx. rewrite Bn. destruct (Z.eqb_spec x n) as [-> |]; [|reflexivity]. exfalso. exact (Kn a Pa Hx).
        -- constructor; [exact (Kn a Pa)|exact K2].
        -- intros x. cbn [In]. rewrite K3, NN. split.
           ++ intros [<- |(A & B & C)]; [split; [auto|]; split; [lia|exact Pnn]|].
              split; [auto|]. split; [exact B|]. rewrite Pz; [exact C|intros ->; contradiction].
           ++ intros ([A| ->] & B & C); [|auto]. right. rewrite Pz in C; [auto|intros ->; contradiction].
      * destruct (Z.eqb_spec m n) as [-> |Nn].
        -- split; [constructor|split; [constructor|]]. intros x. cbn [In]. rewrite NN. split; [intros []|]. intros ([A| ->] & B & C).
           ++ rewrite Pz in C by (intros ->; contradiction). apply Pn. rewrite <- C. apply (Par x A B).
           ++ rewrite Pnn in C. lia.
        -- destruct Hm as [Hm|?]; [|contradiction]. destruct (Kids m Hm) as (K1 & K2 & K3).
           split; [|split; [exact K2|]].
           ++ eapply sibs_ext; [|exact K1]. intros x Hx. rewrite Bn. destruct (Z.eqb_spec x n) as [-> |]; [|reflexivity]. exfalso. exact (Kn m Hm Hx).
           ++ intros x. rewrite K3, NN. split.
              ** intros (A & B & C). split; [auto|]. split; [exact B|]. rewrite Pz; [exact C|]. intros ->. contradiction.
              ** intros ([A| ->] & B & C).
                 --- rewrite Pz in C by (intros ->; contradiction). auto.
                 --- rewrite Pnn in C. congruence.
    + intros j j' Hj Hj' N N' G. cbn [tr' mt_child].
      assert (j <= lam) as Hjl. { destruct (Z_le_dec j lam); [assumption|]. exfalso. apply N. rewrite Lup. replace (j =? v) with false by lia. replace (_ && _) with true by lia. reflexivity. }
      rewrite (Lle j Hjl) in *. destruct (Z_le_dec j' lam) as [Q|Q].
      * rewrite (Lle j' Q) in *. destruct (Lab j ltac:(lia) N) as (A & B). unfold node in A. fold n in A.
        rewrite Cn. destruct (Z.eqb_spec (lab # j) a) as [E|].
        -- exfalso. assert (j = lam) by (rewrite <- B, E; exact La). lia.
        -- replace (lab # j =? n) with false by lia. apply (Sp j j' Hj Q N N'). intros i Hi. rewrite <- Lle by lia. exact (G i Hi).
      * assert (j' = v) as ->. { destruct (Z.eq_dec j' v); [assumption|]. exfalso. apply N'. rewrite Lup. replace (j' =? v) with false by lia. replace (_ && _) with true by lia. reflexivity. }
        assert (j = lam) as ->. { destruct (Z.eq_dec j lam); [assumption|]. exfalso. apply Top. change (lab # lam = 0). rewrite <- (Lle lam) by lia. apply G. lia. }
        rewrite Lup, Z.eqb_refl, Cn. fold a. rewrite Z.eqb_refl. reflexivity.
    + intros m Hm. rewrite Ln. apply NN in Hm as [Hm| ->]; [|rewrite Z.eqb_refl; lia]. destruct (m =? n); [lia|]. exact (Lvl m Hm).
  - intros x Nx H. apply anc_cases in H as [H|(_ & H)]; [contradiction|]. rewrite Pnn in H. exact H.
Qed.

(** The step: the same tree, or one node more. *)
Record mstep (k : ckind) (tr : mtree) (par : Z -> Z) (tr' : mtree) (par' : Z -> Z) : Prop := {
  e_cur : curLabel tr <= curLabel tr' <= curLabel tr + 1;
  e_level : forall m, node tr m -> (mt_level tr') # m = (mt_level tr) # m;
  e_crit : forall m, node tr m -> znth (0, 0) (mt_crit tr') m = znth (0, 0) (mt_crit tr) m;
  e_new : forall m, node tr' m -> ~ node tr m -> znth (0, 0) (mt_crit tr') m = c_reset k;
  e_old : forall x y, node tr x -> node tr y -> anc par' x y <-> anc par x y;
  e_below : forall x, node tr' x -> ~ node tr x -> (forall y, node tr y -> ~ anc par' x y) \/
     (exists c, node tr c /\ (mt_level tr') # x <= (mt_level tr) # c /\ forall y, node tr y -> anc par' x y -> anc par c y) }.

Lemma mstep_refl k tr par : mstep k tr par tr par.
Proof using. clear Ht Hmv. clear t mv. constructor; try reflexivity; [lia|..]; intros; contradiction. Qed.

Lemma grown_step k v tr par tr' par' : grown k (curLabel tr) v tr par tr' par' -> mstep k tr par tr' par'.
Proof using.
  clear Ht Hmv. clear t mv. intros [A B C D E F]. constructor.
  - lia.
  - intros m [_ Hm]. rewrite C. replace (m =? _) with false by lia. reflexivity.
  - intros m [_ Hm]. rewrite D. replace (m =? _) with false by lia. reflexivity.
  - intros m Hm Hn. unfold node in *. rewrite D. replace (m =? _) with true by lia. reflexivity.
  - intros x y Hx Hy. apply E; [exact Hy|]. unfold node in Hx. lia.
  - intros x Hx Hn. assert (x = curLabel tr) as -> by (unfold node in *; lia). rewrite C, Z.eqb_refl. destruct F as [F|(c & F1 & F2 & F3)]; [left; exact F|].
    right. exists c. split; [exact F1|]. split; [lia|exact F3].
Qed.

Lemma mt_node_ok k lam lab tr par kids vn : mts lam lab tr par kids -> mv <= vn <= tmax t -> curLabel tr < MAX_NODES ->
  exists lab' tr' par' kids' m, mt_node k lab tr lam vn = Some (lab', tr', m) /\ mstep k tr par tr' par' /\
    mts (Z.max lam vn) lab' tr' par' kids' /\ lab' # vn = m /\ node tr' m /\
    (forall j, j <= lam -> j <> vn -> lab' # j = lab # j) /\ (lab # vn <> 0 -> vn <= lam -> m = lab # vn) /\
    (forall x, anc par' x m -> anc par' x (lab # lam) \/ (x = m /\ forall y, node tr y -> ~ anc par' m y)) /\
    (Z.max lam vn = lam \/ ~ node tr m).
Proof using Ht Hmv.
  intros S Hvn HM. pose proof (u816 t Ht) as (_ & TC & TM). pose proof (s_labl _ _ _ _ _ _ _ S) as Ll. pose proof (s_lam _ _ _ _ _ _ _ S) as Hlam.
  unfold mt_node. destruct (Z.gtb_spec vn lam) as [G|G].
  - destruct (clear_labels (lam + 1) (vn - (lam + 1)) lab ltac:(lia) ltac:(lia)) as (lab0 & E0 & L0 & V0). rewrite E0. cbn [option_bind].
    destruct (next_higher k lam lab tr par kids vn lab0 S ltac:(lia) HM L0) as (tr' & par' & kids' & E & Gr & S' & Anc & Bel).
    { intros j. rewrite V0. replace (lam + 1 + (vn - (lam + 1))) with vn by lia. reflexivity. }
    rewrite E. cbn [option_bind]. rewrite wr_upd by lia. cbn [option_bind].
    exists (upd lab0 vn (curLabel tr)), tr', par', kids', (curLabel tr). split; [reflexivity|]. split; [eapply grown_step; exact Gr|].
    rewrite Z.max_r by lia. split; [exact S'|]. split; [rewrite znth_upd' by lia; rewrite Z.eqb_refl; reflexivity|].
    split; [unfold node; rewrite (g_cur _ _ _ _ _ _ _ Gr); pose proof (s_cur _ _ _ _ _ _ _ S); lia|]. split; [|split; [lia|split]].
    + intros j Hj Nj. rewrite znth_upd' by lia. replace (j =? vn) with false by lia. rewrite V0. replace (_ && _) with false by lia. reflexivity.
    + intros x Hx. destruct (Z.eq_dec x (curLabel tr)) as [-> |Nx]; [right; auto|left; auto].
    + right. unfold node. lia.
  - rewrite (rd_znth 0 lab) by lia. cbn [option_bind]. destruct (Z.eqb_spec (lab # vn) 0) as [Z0|N0].
    + assert (mv <> vn). { intros <-. pose proof (s_root _ _ _ _ _ _ _ S). lia. }
      destruct (next_lower t mv Ht Hmv k lam lab tr par kids vn S ltac:(lia) Z0 HM) as (tr' & par' & kids' & E & Gr & S').
      rewrite E. cbn [option_bind]. rewrite wr_upd by lia. cbn [option_bind].
      exists (upd lab vn (curLabel tr)), tr', par', kids', (curLabel tr). split; [reflexivity|]. split; [eapply grown_step; exact Gr|].
      rewrite Z.max_l by lia. split; [exact S'|].
      assert (Lup : forall j, znth 0 (upd lab vn (curLabel tr)) j = if j =? vn then curLabel tr else lab # j) by (intros j; apply znth_upd'; lia).
      pose proof (s_cur _ _ _ _ _ _ _ S) as Cu.
      split; [rewrite Lup, Z.eqb_refl; reflexivity|]. split; [unfold node; rewrite (g_cur _ _ _ _ _ _ _ Gr); lia|]. split; [|split; [contradiction|split]].
      * intros j Hj Nj. rewrite Lup. replace (j =? vn) with false by lia. reflexivity.
      * intros x Hx. left. eapply anc_trans; [exact Hx|]. pose proof (s_top _ _ _ _ _ _ _ S) as Top.
        assert (lam <> vn) by (intros ->; contradiction).
        pose proof (spine_anc t mv Hmv _ _ _ _ _ vn lam S' ltac:(lia) ltac:(lia)) as A. rewrite !Lup, Z.eqb_refl in A. replace (lam =? vn) with false in A by lia. apply A; lia || assumption.
      * left; reflexivity.
    + exists lab, tr, par, kids, (lab # vn). split; [reflexivity|]. split; [apply mstep_refl|]. rewrite Z.max_l by lia. split; [exact S|]. split; [reflexivity|].
      split; [apply (s_lab _ _ _ _ _ _ _ S vn ltac:(lia) N0)|]. split; [reflexivity|]. split; [reflexivity|]. split; [|left; reflexivity].
      intros x Hx. left. eapply anc_trans; [exact Hx|]. apply (spine_anc t mv Hmv lam lab tr par kids); try assumption; try lia. apply (s_top _ _ _ _ _ _ _ S).
Qed.
End node_step.
