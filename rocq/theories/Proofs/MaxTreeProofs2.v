(** The max-tree: the structure kept by nextLowerLabel and nextHigherLabel. *)
From Verif Require Export Proofs.MaxTreeProofs.

Local Notation "l # i" := (znth 0 l i) (at level 9).

Lemma znth_snoc {A} (d : A) (l : list A) x i : znth d (l ++ [x]) i = if i =? Z.of_nat (length l) then x else znth d l i.
Proof.
  unfold znth. rewrite rd_app. destruct (Z.ltb_spec i (Z.of_nat (length l))).
  - replace (i =? Z.of_nat (length l)) with false by lia. reflexivity.
  - destruct (Z.eqb_spec i (Z.of_nat (length l))) as [-> |].
    + rewrite Z.sub_diag. reflexivity.
    + rewrite !rd_out by (cbn [length]; lia). reflexivity.
Qed.

Lemma last_nonzero (lab : list Z) i : forall j, i < j -> lab # i <> 0 -> exists j0, i <= j0 < j /\ lab # j0 <> 0 /\ forall k, j0 < k < j -> lab # k = 0.
Proof.
  intros j Hj Hi. remember (Z.to_nat (j - i)) as d eqn:Ed. revert j Hj Ed. induction d as [|d IH]; intros j Hj Ed; [lia|].
  destruct (Z.eq_dec (lab # (j - 1)) 0) as [E|N].
  - destruct (Z.eq_dec (j - 1) i) as [<- |]; [contradiction|]. destruct (IH (j - 1) ltac:(lia) ltac:(lia)) as (j0 & A & B & C). exists j0. split; [lia|]. split; [exact B|].
    intros k Hk. destruct (Z.eq_dec k (j - 1)) as [-> |]; [exact E|]. apply C. lia.
  - exists (j - 1). split; [lia|]. split; [exact N|]. intros; lia.
Qed.

Lemma first_nonzero (lab : list Z) j : forall i, i < j -> lab # j <> 0 -> exists j0, i < j0 <= j /\ lab # j0 <> 0 /\ forall k, i < k < j0 -> lab # k = 0.
Proof.
  intros i Hj Hi. remember (Z.to_nat (j - i)) as d eqn:Ed. revert i Hj Ed. induction d as [|d IH]; intros i Hj Ed; [lia|].
  destruct (Z.eq_dec (lab # (i + 1)) 0) as [E|N].
  - destruct (Z.eq_dec (i + 1) j) as [<- |]; [contradiction|]. destruct (IH (i + 1) ltac:(lia) ltac:(lia)) as (j0 & A & B & C). exists j0. split; [lia|]. split; [exact B|].
    intros k Hk. destruct (Z.eq_dec k (i + 1)) as [-> |]; [exact E|]. apply C. lia.
  - exists (i + 1). split; [lia|]. split; [exact N|]. intros; lia.
Qed.

Lemma label_below_ok lab v j0 : 0 <= j0 < v -> v <= Z.of_nat (length lab) -> lab # j0 <> 0 -> (forall k, j0 < k < v -> lab # k = 0) ->
  label_below lab (Z.to_nat v) = Some (lab # j0).
Proof.
  intros H Hl N Z0. remember (Z.to_nat v) as d eqn:Ed. revert v H Hl Z0 Ed. induction d as [|d IH]; intros v H Hl Z0 Ed; [lia|].
  cbn [label_below]. rewrite (rd_znth 0) by lia. cbn [option_bind]. destruct (Z.eq_dec (Z.of_nat d) j0) as [-> |].
  - replace (lab # j0 =? 0) with false by lia. reflexivity.
  - rewrite Z0 by lia. cbn. apply (IH (v - 1)); try lia. intros; apply Z0; lia.
Qed.

Definition node (tr : mtree) (m : Z) : Prop := 1 <= m < curLabel tr.

Section structure.
Variables (t : ity) (mv : Z).
Hypothesis Ht : t = UINT8 \/ t = UINT16.
Hypothesis Hmv : 0 <= mv.

Record mts (lam : Z) (lab : list Z) (tr : mtree) (par : Z -> Z) (kids : Z -> list Z) : Prop := {
  s_lens : length (mt_child tr) = length (mt_level tr) /\ length (mt_brother tr) = length (mt_level tr) /\ length (mt_crit tr) = length (mt_level tr);
  s_cur : 2 <= curLabel tr;
  s_labl : Z.of_nat (length lab) = tcard t;
  s_lam : mv <= lam <= tmax t;
  s_root : lab # mv = 1 /\ (mt_level tr) # 1 = mv;
  s_top : lab # lam <> 0;
  s_lab : forall j, mv <= j <= lam -> lab # j <> 0 -> node tr (lab # j) /\ (mt_level tr) # (lab # j) = j;
  s_par : forall m, node tr m -> m <> 1 -> node tr (par m) /\ (mt_level tr) # (par m) < (mt_level tr) # m;
  s_kids : forall m, node tr m -> sibs (znth 0 (mt_brother tr)) ((mt_child tr) # m) (kids m) /\ NoDup (kids m) /\
     forall c, In c (kids m) <-> node tr c /\ c <> 1 /\ par c = m;
  s_spine : forall j j', mv <= j < j' -> j' <= lam -> lab # j <> 0 -> lab # j' <> 0 -> (forall i, j < i < j' -> lab # i = 0) ->
     (mt_child tr) # (lab # j) = lab # j';
  s_lev : forall m, node tr m -> (mt_level tr) # m <= tmax t /\ (m = 1 \/ mv < (mt_level tr) # m) }.

(** The child on the spine. *)
Lemma spine_kid lam lab tr par kids j j' : mts lam lab tr par kids -> mv <= j < j' -> j' <= lam -> lab # j <> 0 -> lab # j' <> 0 ->
  (forall i, j < i < j' -> lab # i = 0) ->
  lab # j' <> 1 /\ par (lab # j') = lab # j /\ exists l, kids (lab # j) = lab # j' :: l /\ sibs (znth 0 (mt_brother tr)) ((mt_brother tr) # (lab # j')) l.
Proof using.
  intros S Hj Hj' N N' Z0. pose proof (s_spine _ _ _ _ _ S j j' Hj Hj' N N' Z0) as E.
  destruct (s_lab _ _ _ _ _ S j ltac:(lia) N) as (Nj & Lj). destruct (s_kids _ _ _ _ _ S _ Nj) as (K1 & K2 & K3). rewrite E in K1.
  destruct (sibs_head _ _ _ K1 N') as (l & El & Sl). destruct (proj1 (K3 (lab # j'))) as (_ & A & B); [rewrite El; left; reflexivity|]. eauto.
Qed.

Lemma spine_anc lam lab tr par kids i j : mts lam lab tr par kids -> mv <= i <= j -> j <= lam -> lab # i <> 0 -> lab # j <> 0 -> anc par (lab # i) (lab # j).
Proof using Hmv.
  intros S Hij Hj Ni. remember (Z.to_nat (j - i)) as d eqn:Ed. revert j Hij Hj Ed. induction d as [d IH] using lt_wf_ind. intros j Hij Hj Ed Nj.
  destruct (Z.eq_dec i j) as [-> |Ne]; [apply anc_self|].
  destruct (last_nonzero lab i j ltac:(lia) Ni) as (j0 & A & B & C).
  destruct (spine_kid _ _ _ _ _ j0 j S ltac:(lia) Hj B Nj C) as (N1 & Ep & _).
  apply anc_up; [exact N1|]. rewrite Ep. apply (IH (Z.to_nat (j0 - i))); lia || assumption.
Qed.

(** What a new node does to the ancestors. *)
Record grown (k : ckind) (n v : Z) (tr : mtree) (par : Z -> Z) (tr' : mtree) (par' : Z -> Z) : Prop := {
  g_n : n = curLabel tr;
  g_cur : curLabel tr' = n + 1;
  g_level : forall m, (mt_level tr') # m = if m =? n then v else (mt_level tr) # m;
  g_crit : forall m, znth (0, 0) (mt_crit tr') m = if m =? n then c_reset k else znth (0, 0) (mt_crit tr) m;
  g_old : forall x y, node tr y -> x <> n -> anc par' x y <-> anc par x y;
  g_below : (forall y, node tr y -> ~ anc par' n y) \/ (exists c, node tr c /\ v < (mt_level tr) # c /\ forall y, node tr y -> anc par' n y -> anc par c y) }.

Lemma next_lower k lam lab tr par kids v : mts lam lab tr par kids -> mv < v <= lam -> lab # v = 0 -> curLabel tr < MAX_NODES ->
  exists tr' par' kids', nextLowerLabel k lab tr v = Some (tr', curLabel tr) /\ grown k (curLabel tr) v tr par tr' par' /\
    mts lam (upd lab v (curLabel tr)) tr' par' kids'.
Proof using Ht Hmv.
  intros S Hv Zv HM. pose proof S as [(L1 & L2 & L3) Cu Ll Hlam (R1 & R2) Top Lab Par Kids Sp Lvl]. pose proof (u816 t Ht) as (_ & TC & TM).
  set (n := curLabel tr) in *. assert (Z.of_nat (length (mt_level tr)) = n) as En by reflexivity.
  destruct (last_nonzero lab mv v ltac:(lia) ltac:(rewrite R1; lia)) as (j0 & J1 & J2 & J3).
  assert (v <> lam) as Nv by (intros ->; contradiction).
  destruct (first_nonzero lab lam v ltac:(lia) Top) as (j1 & I1 & I2 & I3).
  assert (forall i, j0 < i < j1 -> lab # i = 0) as Gap.
  { intros i Hi. destruct (Z.eq_dec i v) as [-> |]; [exact Zv|]. destruct (Z_lt_dec i v); [apply J3; lia|apply I3; lia]. }
  destruct (spine_kid _ _ _ _ _ j0 j1 S ltac:(lia) ltac:(lia) J2 I2 Gap) as (Nc1 & Ep & l & Ek & Sl).
  pose proof (Sp j0 j1 ltac:(lia) ltac:(lia) J2 I2 Gap) as Ec.
  destruct (Lab j0 ltac:(lia) J2) as (Na & La). destruct (Lab j1 ltac:(lia) I2) as (Nc & Lc).
  set (a := lab # j0) in *. set (c := lab # j1) in *. unfold node in Na, Nc. fold n in Na, Nc.
  unfold nextLowerLabel. rewrite (label_below_ok lab v j0) by (lia || assumption). cbn [option_bind]. fold a.
  rewrite (rd_znth 0 (mt_child tr)) by lia. cbn [option_bind]. rewrite Ec. rewrite (rd_znth 0 (mt_brother tr)) by lia. cbn [option_bind].
  unfold mt_new. fold n. replace (n >=? MAX_NODES) with false by lia. cbn [option_bind mt_child mt_brother mt_level mt_crit].
  rewrite wr_upd by (rewrite app_length; cbn [length]; lia). cbn [option_bind]. rewrite wr_upd by (rewrite app_length; cbn [length]; lia). cbn [option_bind].
  set (b := (mt_brother tr) # c) in *.
  assert (Cn : forall m, znth 0 (upd (mt_child tr ++ [c]) a n) m = if m =? a then n else if m =? n then c else (mt_child tr) # m).
  { intros m. rewrite znth_upd' by (rewrite app_length; cbn [length]; lia). rewrite znth_snoc. replace (Z.of_nat (length (mt_child tr))) with n by lia. reflexivity. }
  assert (Bn : forall m, znth 0 (upd (mt_brother tr ++ [b]) c 0) m = if m =? c then 0 else if m =? n then b else (mt_brother tr) # m).
  { intros m. rewrite znth_upd' by (rewrite app_length; cbn [length]; lia). rewrite znth_snoc. replace (Z.of_nat (length (mt_brother tr))) with n by lia. reflexivity. }
  set (tr' := MT _ _ _ _).
  assert (Hcur : curLabel tr' = n + 1) by (unfold curLabel, tr'; cbn [mt_level]; rewrite app_length; cbn [length]; lia).
  assert (Ln : forall m, (mt_level tr') # m = if m =? n then v else (mt_level tr) # m).
  { intros m. unfold tr'. cbn [mt_level]. rewrite znth_snoc, En. reflexivity. }
  assert (Pn : ~ node tr n) by (unfold node; fold n; lia).
  assert (Pa : node tr a) by (unfold node; fold n; lia). assert (Pc : node tr c) by (unfold node; fold n; lia).
  set (par' := par_mid par n a c). set (kids' := fun m => if m =? a then n :: l else if m =? n then [c] else kids m).
  assert (Kn : forall m, node tr m -> ~ In n (kids m)). { intros m Hm Hi. apply (Kids m Hm) in Hi as (Hi & _). contradiction. }
  assert (Lva : (mt_level tr) # a = j0) by exact La.
  exists tr', par', kids'. split; [reflexivity|]. split.
  - constructor.
    + reflexivity.
    + exact Hcur.
    + exact Ln.
    + intros m. unfold tr'. cbn [mt_crit]. rewrite znth_snoc. assert (Z.of_nat (length (mt_crit tr)) = n) as Ecr by lia. unfold crit in *. rewrite Ecr. reflexivity.
    + intros x y Py Nx. apply (mid_old (node tr) par (znth 0 (mt_level tr))); assumption || lia.
    + right. exists c. split; [exact Pc|]. split; [rewrite Lc; lia|]. intros y Py. apply (mid_below (node tr) par (znth 0 (mt_level tr))); assumption || lia.
  - assert (NN : forall m, node tr' m <-> node tr m \/ m = n) by (intros m; unfold node; rewrite Hcur; fold n; lia).
    assert (Lup : forall j, znth 0 (upd lab v n) j = if j =? v then n else lab # j) by (intros j; apply znth_upd'; lia).
    constructor.
    + unfold tr'. cbn. rewrite !upd_length, !app_length. cbn. lia.
    + lia.
    + rewrite upd_length. exact Ll.
    + exact Hlam.
    + rewrite Lup, Ln. replace (mv =? v) with false by lia. replace (1 =? n) with false by lia. auto.
    + rewrite Lup. destruct (_ =? _); [lia|exact Top].
    + intros j Hj. rewrite Lup. destruct (Z.eqb_spec j v) as [-> |].
      * intros _. split; [apply NN; auto|]. rewrite Ln, Z.eqb_refl. reflexivity.
      * intros N. destruct (Lab j Hj N) as (A & B). split; [apply NN; auto|]. rewrite Ln. replace (_ =? _) with false; [exact B|]. unfold node in A. fold n in A. lia.
    + intros m Hm N1. apply NN in Hm as [Hm| ->].
      * destruct (Z.eq_dec m c) as [-> |Nm].
        -- unfold par'. rewrite (mid_c (node tr) par n a Pn c Pc). split; [apply NN; auto|]. rewrite !Ln, Z.eqb_refl. replace (c =? n) with false by lia. lia.
        -- unfold par'. rewrite (mid_other (node tr) par n a Pn c m Hm Nm). destruct (Par m Hm N1) as (A & B). split; [apply NN; auto|].
           rewrite !Ln. unfold node in A, Hm. fold n in A, Hm. replace (_ =? _) with false by lia. replace (_ =? _) with false by lia. exact B.
      * unfold par'. rewrite mid_n. split; [apply NN; auto|]. rewrite !Ln, Z.eqb_refl. replace (a =? n) with false by lia. lia.
    + intros m Hm. apply NN in Hm. unfold kids'. cbn [tr' mt_child mt_brother]. rewrite Cn. destruct (Z.eqb_spec m a) as [-> |Na'].
      * destruct (Kids a Pa) as (K1 & K2 & K3). rewrite Ek in K2, K3. apply NoDup_cons_iff in K2 as (K2 & K2').
        split; [|split].
        -- constructor; [lia|]. rewrite Bn. replace (n =? c) with false by lia. rewrite Z.eqb_refl. eapply sibs_ext; [|exact Sl].
           intros x Hx. rewrite Bn. destruct (Z.eqb_spec x c) as [-> |]; [contradiction|].
           destruct (Z.eqb_spec x n) as [-> |]; [|reflexivity]. exfalso. apply Pn. apply (K3 n). right; exact Hx.
        -- constructor; [|exact K2']. intros Hi. apply Pn. apply (K3 n). right; exact Hi.
        -- intros x. cbn [In]. rewrite NN. split.
           ++ intros [<- |Hi]; [split; [auto|]; split; [lia|apply mid_n]|].
              destruct (proj1 (K3 x) (or_intror Hi)) as (A & B & C). split; [auto|]. split; [exact B|]. unfold par'. rewrite (mid_other (node tr) par n a Pn c x A); [exact C|]. intros ->. contradiction.
           ++ intros ([A| ->] & B & C); [|auto]. right. destruct (Z.eq_dec x c) as [-> |Nx].
              ** unfold par' in C. rewrite (mid_c (node tr) par n a Pn c Pc) in C. lia.
              ** unfold par' in C. rewrite (mid_other (node tr) par n a Pn c x A Nx) in C. destruct (proj2 (K3 x)) as [E|E]; [auto|congruence|exact E].
      * destruct (Z.eqb_spec m n) as [-> |Nn].
        -- split; [|split].
           ++ constructor; [lia|]. rewrite Bn, Z.eqb_refl. constructor.
           ++ constructor; [intros []|constructor].
           ++ intros x. cbn [In]. rewrite NN. split.
              ** intros [<- |[]]. split; [auto|]. split; [exact Nc1|]. unfold par'. apply (mid_c (node tr)); assumption.
              ** intros ([A| ->] & B & C).
                 --- left. destruct (Z.eq_dec x c) as [|Nx]; [congruence|]. unfold par' in C. rewrite (mid_other (node tr) par n a Pn c x A Nx) in C.
                     exfalso. apply Pn. rewrite <- C. apply (Par x A B).
                 --- unfold par' in C. rewrite mid_n in C. lia.
        -- destruct Hm as [Hm|?]; [|contradiction]. destruct (Kids m Hm) as (K1 & K2 & K3).
           assert (~ In c (kids m)) as Ncm. { intros Hi. apply K3 in Hi as (_ & _ & E). congruence. }
           split; [|split; [exact K2|]].
           ++ eapply sibs_ext; [|exact K1]. intros x Hx. rewrite Bn. destruct (Z.eqb_spec x c) as [-> |]; [contradiction|].
              destruct (Z.eqb_spec x n) as [-> |]; [|reflexivity]. exfalso. exact (Kn m Hm Hx).
           ++ intros x. rewrite K3, NN. split.
              ** intros (A & B & C). split; [auto|]. split; [exact B|]. unfold par'. rewrite (mid_other (node tr) par n a Pn c x A); [exact C|]. intros ->. congruence.
              ** intros ([A| ->] & B & C).
                 --- destruct (Z.eq_dec x c) as [-> |Nx].
                     +++ unfold par' in C. rewrite (mid_c (node tr) par n a Pn c Pc) in C. congruence.
                     +++ unfold par' in C. rewrite (mid_other (node tr) par n a Pn c x A Nx) in C. auto.
                 --- unfold par' in C. rewrite mid_n in C. congruence.
    + intros j j' Hj Hj'. rewrite !Lup. cbn [tr' mt_child]. intros N N' G.
      assert (forall i, j < i < j' -> i <> v /\ lab # i = 0) as G'.
      { intros i Hi. specialize (G i Hi). rewrite Lup in G. destruct (Z.eqb_spec i v); [lia|auto]. }
      destruct (Z.eqb_spec j v) as [-> |Njv]; [destruct (Z.eqb_spec j' v); [lia|]|destruct (Z.eqb_spec j' v) as [-> |]].
      * rewrite Cn. replace (n =? a) with false by lia. rewrite Z.eqb_refl.
        assert (j' = j1) as ->; [|reflexivity].
        destruct (Z_lt_dec j' j1) as [Q|Q]; [exfalso; apply N'; apply I3; lia|]. destruct (Z_lt_dec j1 j') as [Q'|]; [|lia].
        exfalso. apply I2. apply G'. lia.
      * assert (j = j0) as ->; [|rewrite Cn; fold a; rewrite Z.eqb_refl; reflexivity].
        destruct (Z_lt_dec j j0) as [Q|Q]; [exfalso; apply J2; apply G'; lia|]. destruct (Z_lt_dec j0 j) as [Q'|]; [|lia].
        exfalso. apply N. apply J3; lia.
      * destruct (Lab j ltac:(lia) N) as (A & B). unfold node in A. fold n in A.
        rewrite Cn. destruct (Z.eqb_spec (lab # j) a) as [E|].
        -- exfalso. assert (j = j0) as -> by (rewrite <- B, E; exact La).
           assert (v < j') by (destruct (Z_lt_dec j' v); [exfalso; apply N'; apply J3; lia|lia]).
           destruct (G' v ltac:(lia)). lia.
        -- replace (lab # j =? n) with false by lia. exact (Sp j j' Hj Hj' N N' (fun i Hi => proj2 (G' i Hi))).
    + intros m Hm. rewrite Ln. apply NN in Hm as [Hm| ->]; [|rewrite Z.eqb_refl; lia]. destruct (m =? n); [lia|]. exact (Lvl m Hm).
Qed.
End structure.
