(** Extinction values: the invariant of the flooding. *)
From Coq Require Export Permutation.
From Verif Require Export Proofs.ExtinctionProofs1 Spec.ImageSpec Proofs.ImageFacts.
From Verif Require Import Proofs.GraphProofs Proofs.GraphProofs3.
From Verif Require Spec.GraphSpec.

(** ** Forests *)
Lemma linked_snoc S x a b : GraphSpec.linked (S ++ [x]) a b -> GraphSpec.linked S a b \/
  (GraphSpec.linked S a (src x) /\ GraphSpec.linked S (tgt x) b) \/ (GraphSpec.linked S a (tgt x) /\ GraphSpec.linked S (src x) b).
Proof.
  intros H. induction H as [|b c e H IH Hi J]; [left; constructor|]. apply in_app_iff in Hi as [Hi|[<-|[]]].
  - destruct IH as [IH|[(IH1 & IH2)|(IH1 & IH2)]]; [left|right; left; split; [exact IH1|]|right; right; split; [exact IH1|]]; eapply GraphSpec.link_step; eauto.
  - destruct IH as [IH|[(IH1 & IH2)|(IH1 & IH2)]]; destruct J as [(<- & <-)|(<- & <-)].
    + right; left. split; [exact IH|constructor].
    + right; right. split; [exact IH|constructor].
    + right; left. split; [exact IH1|constructor].
    + left. exact IH1.
    + left. exact IH1.
    + right; right. split; [exact IH1|constructor].
Qed.

Lemma acyclic_snoc S x : GraphSpec.acyclic S -> ~ GraphSpec.linked S (src x) (tgt x) -> GraphSpec.acyclic (S ++ [x]).
Proof.
  intros HA Hx l1 e l2 E. destruct l2 as [|y l2] using rev_ind.
  - apply app_inj_tail in E as (-> & ->). rewrite app_nil_r. exact Hx.
  - clear IHl2. rewrite app_comm_cons, app_assoc in E. apply app_inj_tail in E as (-> & ->). rewrite app_assoc. intros H. apply linked_snoc in H.
    assert (I : incl (l1 ++ l2) (l1 ++ e :: l2)) by (intros z Hz; apply in_app_iff in Hz as [Hz|Hz]; apply in_or_app; [left|right; right]; exact Hz).
    assert (Le : GraphSpec.linked (l1 ++ e :: l2) (src e) (tgt e)) by (apply linked_one with e; [apply in_or_app; right; left; reflexivity|left; auto]).
    destruct H as [H|[(H1 & H2)|(H1 & H2)]]; [exact (HA l1 e l2 eq_refl H)| |]; apply Hx; apply (linked_incl _ _ _ _ I) in H1; apply (linked_incl _ _ _ _ I) in H2.
    + eapply linked_trans; [apply linked_sym; exact H1|]. eapply linked_trans; [exact Le|]. apply linked_sym. exact H2.
    + apply linked_sym. eapply linked_trans; [apply linked_sym; exact H1|]. eapply linked_trans; [exact Le|]. apply linked_sym. exact H2.
Qed.

(** ** Sums over a class *)
Section Classes.
Context (n : Z) (lab : Z -> Z) (px : list Z) (tm : Z).
Local Notation "l # i" := (znth 0 l i) (at level 9).
Definition members (equ : list Z) (D : list Z) (r : Z) : list Z := filter (fun p => equ # (lab p) =? r) D.
Definition tot (f : Z -> Z) (equ D : list Z) (r : Z) : Z := Zsum (map f (members equ D r)).
Definition lowest (equ D : list Z) (r : Z) : Z := fold_right Z.min tm (map (fun p => px # p) (members equ D r)).

Lemma members_In equ D r p : In p (members equ D r) <-> In p D /\ equ # (lab p) = r.
Proof. unfold members. rewrite filter_In, Z.eqb_eq. tauto. Qed.

Lemma members_cons equ p D r : members equ (p :: D) r = if equ # (lab p) =? r then p :: members equ D r else members equ D r.
Proof. reflexivity. Qed.

Lemma tot_cons f equ p D r : tot f equ (p :: D) r = if equ # (lab p) =? r then f p + tot f equ D r else tot f equ D r.
Proof. unfold tot. rewrite members_cons. destruct (_ =? r); [cbn [map]; apply Zsum_cons|reflexivity]. Qed.

Lemma lowest_cons equ p D r : lowest equ (p :: D) r = if equ # (lab p) =? r then Z.min px # p (lowest equ D r) else lowest equ D r.
Proof. unfold lowest. rewrite members_cons. destruct (_ =? r); reflexivity. Qed.

Definition fused (equ equ' : list Z) (eater eaten : Z) : Prop := forall i, 0 <= i <= n -> equ' # i = if equ # i =? eaten then eater else equ # i.

Lemma tot_fused f equ equ' eater eaten D r : eater <> eaten -> r <> eaten -> fused equ equ' eater eaten -> (forall p, In p D -> 0 <= lab p <= n) ->
  tot f equ' D r = if r =? eater then tot f equ D eater + tot f equ D eaten else tot f equ D r.
Proof.
  intros Hne Hr HF. induction D as [|p D IH]; intros Hl; [destruct (r =? eater); reflexivity|]. rewrite !tot_cons. rewrite IH by (intros; apply Hl; right; assumption). rewrite (HF (lab p)) by (apply Hl; left; reflexivity).
  destruct (Z.eqb_spec equ # (lab p) eaten) as [E|E]; destruct (Z.eqb_spec r eater) as [Er|Er].
  - subst r. rewrite Z.eqb_refl. rewrite E. replace (eaten =? eater) with false by lia. lia.
  - replace (eater =? r) with false by lia. replace (equ # (lab p) =? r) with false by lia. reflexivity.
  - subst r. destruct (equ # (lab p) =? eater); lia.
  - reflexivity.
Qed.

Lemma lowest_fused equ equ' eater eaten D r : eater <> eaten -> r <> eaten -> fused equ equ' eater eaten -> (forall p, In p D -> 0 <= lab p <= n) ->
  lowest equ' D r = if r =? eater then Z.min (lowest equ D eater) (lowest equ D eaten) else lowest equ D r.
Proof.
  intros Hne Hr HF. induction D as [|p D IH]; intros Hl; [unfold lowest; cbn; destruct (r =? eater); lia|]. rewrite !lowest_cons. rewrite IH by (intros; apply Hl; right; assumption). rewrite (HF (lab p)) by (apply Hl; left; reflexivity).
  destruct (Z.eqb_spec equ # (lab p) eaten) as [E|E]; destruct (Z.eqb_spec r eater) as [Er|Er].
  - subst r. rewrite Z.eqb_refl. rewrite E. replace (eaten =? eater) with false by lia. lia.
  - replace (eater =? r) with false by lia. replace (equ # (lab p) =? r) with false by lia. reflexivity.
  - subst r. destruct (equ # (lab p) =? eater); lia.
  - reflexivity.
Qed.

Lemma tot_one equ D r : 0 <= tot (fun _ => 1) equ D r <= Z.of_nat (length D).
Proof. induction D as [|p D IH]; [cbn; lia|]. rewrite tot_cons. cbn [length]. destruct (_ =? r); lia. Qed.

Lemma tot_count equ D r : tot (fun _ => 1) equ D r = Z.of_nat (length (members equ D r)).
Proof. induction D as [|p D IH]; [reflexivity|]. rewrite tot_cons, members_cons. destruct (_ =? r); cbn [length]; lia. Qed.

Lemma tot_shift equ D r L L' : tot (fun p => L' - px # p) equ D r = tot (fun p => L - px # p) equ D r + tot (fun _ => 1) equ D r * (L' - L).
Proof. induction D as [|p D IH]; [cbn; lia|]. rewrite !tot_cons. destruct (_ =? r); lia. Qed.

Lemma lowest_le equ D r p : In p (members equ D r) -> lowest equ D r <= px # p.
Proof. unfold lowest. induction (members equ D r) as [|q M IH]; intros H; [destruct H|]. cbn [map fold_right]. destruct H as [->|H]; [lia|specialize (IH H); lia]. Qed.
Lemma lowest_ge equ D r v : v <= tm -> (forall p, In p (members equ D r) -> v <= px # p) -> v <= lowest equ D r.
Proof. unfold lowest. intros Hv. induction (members equ D r) as [|q M IH]; intros H; [exact Hv|]. cbn [map fold_right]. specialize (H q (or_introl eq_refl)) as H1. specialize (IH (fun p Hp => H p (or_intror Hp))). lia. Qed.
End Classes.

Lemma members_ext lab lab' equ D r : (forall p, In p D -> lab' p = lab p) -> members lab' equ D r = members lab equ D r.
Proof. intros H. unfold members. apply filter_ext_in. intros p Hp. rewrite H by exact Hp. reflexivity. Qed.

Section Invariant.
Context (k : criterion) (t t2 te : ity) (se : strelt) (s : dims) (px m : list Z) (n : Z).
Notation N := (dw s * dh s * dd s).
Context (Ht : t = UINT8 \/ t = UINT16) (Hs : int_sized s) (Hpts : int_points se) (Hpl : planar se s).
Context (Lp : Z.of_nat (length px) = N) (Lm : Z.of_nat (length m) = N) (Tp : Forall (inty t) px).
Context (Hn : 0 <= n) (Hn32 : n + 1 < 2 ^ 32) (T2 : tmin t2 = 0) (Hnt : n < tmax t2).
Definition two_way : Prop := forall a b, covers se s a b -> covers se s b a.
Context (R : Z -> Z -> Z -> Prop) (Q : Z -> Z -> Prop) (W : list Z -> Z -> Z -> Prop).
Context (R_mono : forall L L' a b, R L a b -> L <= L' -> R L' a b) (R_sym : forall L a b, R L a b -> R L b a) (R_trans : forall L a b c, R L a b -> R L b c -> R L a c).
Context (W_mono : forall D p a b, W D a b -> W (p :: D) a b) (W_trans : forall D a b c, W D a b -> W D b c -> W D a c).
Local Notation "l # i" := (znth 0 l i) (at level 9).

(** The pixels done. *)
Record dok (lab : Z -> Z) (D : list Z) (L : Z) : Prop := {
  d_nd : NoDup D;
  d_in : forall p, In p D -> 0 <= p < N /\ 1 <= lab p <= n /\ px # p <= L }.

Lemma dok_len lab D L : dok lab D L -> Z.of_nat (length D) <= N.
Proof.
  intros [ND DI]. assert (H : (length D <= length (zseq N))%nat) by (apply NoDup_incl_length; [exact ND|]; intros p Hp; apply zseq_In; apply DI; exact Hp).
  rewrite zseq_length in H. destruct Hs as (A & B & C & _). nia.
Qed.

Definition is_root (b : basin_data) (r : Z) : Prop := 1 <= r <= n /\ (bd_equ b) # r = r.

Record xinv (lab : Z -> Z) (D : list Z) (L : Z) (b : basin_data) : Prop := {
  x_sz : sized n b;
  x_rng : forall i, 0 <= i <= n -> 0 <= (bd_equ b) # i <= n;
  x_zero : (bd_equ b) # 0 = 0;
  x_pos : forall i, 1 <= i <= n -> 1 <= (bd_equ b) # i;
  x_idem : forall i, 0 <= i <= n -> (bd_equ b) # ((bd_equ b) # i) = (bd_equ b) # i;
  x_area : forall r, is_root b r -> (bd_areas b) # r = tot lab (fun _ => 1) (bd_equ b) D r;
  x_vol : k = ByVolume -> forall r, is_root b r -> (bd_vol b) # r = (tot lab (fun p => L - px # p) (bd_equ b) D r) mod 2 ^ 32 /\ (bd_flood b) # r = L;
  x_min : k = ByDynamic -> forall r, is_root b r -> (bd_min b) # r = lowest lab px (tmax t) (bd_equ b) D r;
  x_root : forall r, is_root b r -> (bd_ext b) # r = 0;
  x_eaten : forall e, 1 <= e <= n -> (bd_equ b) # e <> e -> Q e (bd_ext b) # e /\ W D e ((bd_equ b) # e);
  x_class : forall a a', 1 <= a <= n -> 1 <= a' <= n -> (bd_equ b) # a = (bd_equ b) # a' -> a = a' \/ R L a a';
  x_adj : two_way -> forall p q, In p D -> In q D -> covers se s q p -> (bd_equ b) # (lab p) = (bd_equ b) # (lab q) }.

(** The graph: a forest whose components are the classes; one edge for each basin eaten. *)
Definition gok (J : Z -> Z -> Prop) (b : basin_data) (g : graph) : Prop :=
  GraphSpec.good_graph g /\
  (forall a a', 1 <= a <= n -> 1 <= a' <= n -> ((bd_equ b) # a = (bd_equ b) # a' <-> GraphSpec.linked (edges g) a a')) /\
  GraphSpec.acyclic (edges g) /\
  (forall e, In e (edges g) -> 1 <= src e <= n /\ 1 <= tgt e <= n /\ J (src e) (tgt e)) /\
  exists eaten, NoDup eaten /\ (forall a, In a eaten <-> 1 <= a <= n /\ (bd_equ b) # a <> a) /\ map wt (edges g) = map (fun a => (bd_ext b) # a) eaten.
Definition ginv (J : Z -> Z -> Prop) (b : basin_data) (g : option graph) : Prop := match g with None => True | Some g => gok J b g end.

Lemma xinv_ext lab lab' D L b : (forall p, In p D -> lab' p = lab p) -> xinv lab D L b -> xinv lab' D L b.
Proof.
  intros H [X1 X2 X3 X4 X5 X6 X7 X8 X9 X10 X11 X12]. constructor; auto; try (unfold tot, lowest in *; intros; rewrite (members_ext lab lab') by exact H; auto; fail).
  intros Sy p q Hp Hq. rewrite !H by assumption. auto.
Qed.

Lemma ginv_ext (J J' : Z -> Z -> Prop) b g : (forall a a', 1 <= a <= n -> 1 <= a' <= n -> J a a' -> J' a a') -> ginv J b g -> ginv J' b g.
Proof.
  intros H. destruct g as [g|]; [|auto]. intros (A & B & C & D & E). split; [exact A|]. split; [exact B|]. split; [exact C|]. split; [|exact E]. intros e He. destruct (D e He) as (D1 & D2 & D3). auto.
Qed.

Lemma ginv_data J b b' g : bd_equ b' = bd_equ b -> bd_ext b' = bd_ext b -> ginv J b g -> ginv J b' g.
Proof. intros E1 E2. destruct g as [g|]; [|auto]. unfold ginv, gok. rewrite E1, E2. auto. Qed.

Lemma wrap32_small x : 0 <= x < 2 ^ 32 -> wrap UINT32 x = x.
Proof. intros H. unfold wrap. cbn [is_signed nbits]. apply Z.mod_small. exact H. Qed.

(** ** A merge *)
Lemma merge_inv lab D L b g (J : Z -> Z -> Prop) o1 o2 : dok lab D L -> xinv lab D L b -> ginv J b g -> 1 <= o1 <= n -> 1 <= o2 <= n -> (bd_equ b) # o1 <> (bd_equ b) # o2 -> R L o1 o2 -> J o1 o2 -> J o2 o1 ->
  (forall eo do, (eo = o1 /\ do = o2) \/ (eo = o2 /\ do = o1) -> data_wins k b (bd_equ b) # eo (bd_equ b) # do ->
     Q (bd_equ b) # do (wrap te (data_value k L b (bd_equ b) # do)) /\ W D (bd_equ b) # do (bd_equ b) # eo) ->
  exists b' g', processMerge k te n L o1 o2 b g = Some (b', g') /\ xinv lab D L b' /\ ginv J b' g' /\ (bd_equ b') # o1 = (bd_equ b') # o2 /\
    (forall a a', 0 <= a <= n -> 0 <= a' <= n -> (bd_equ b) # a = (bd_equ b) # a' -> (bd_equ b') # a = (bd_equ b') # a').
Proof.
  intros HD X G H1 H2 Hne HR HJ1 HJ2 HQ. pose proof X as [Sz Rg E0 Ps Id Ar Vo Mi Ro Ea Cl Ad].
  destruct (process_spec k te n Hn L o1 o2 b g Sz ltac:(lia) ltac:(lia) Rg E0) as (eo & do & b' & g' & E & Ho & Sz' & Sp); [specialize (Ps o1 H1); lia|specialize (Ps o2 H2); lia|exact Hne|].
  cbn zeta in Sp. destruct Sp as (Wi & Mn & Fl & Eq & VA & VE & VV & Eg). destruct (HQ eo do Ho Wi) as (Qd & Wd). clear HQ.
  set (a := (bd_equ b) # eo) in *. set (e := (bd_equ b) # do) in *.
  assert (Hae : a <> e) by (unfold a, e; destruct Ho as [(-> & ->)|(-> & ->)]; auto). assert (Hr : 1 <= eo <= n /\ 1 <= do <= n) by (destruct Ho as [(-> & ->)|(-> & ->)]; auto). destruct Hr as (Heo & Hdo).
  assert (Ha : is_root b a). { split; [unfold a; specialize (Ps eo Heo); specialize (Rg eo ltac:(lia)); lia|apply Id; lia]. }
  assert (He : is_root b e). { split; [unfold e; specialize (Ps do Hdo); specialize (Rg do ltac:(lia)); lia|apply Id; lia]. }
  assert (HF : fused n (bd_equ b) (bd_equ b') a e) by exact Eq.
  assert (Lb : forall p, In p D -> 0 <= lab p <= n) by (intros p Hp; apply HD in Hp; lia).
  assert (Rr : forall r, is_root b' r -> is_root b r /\ r <> e).
  { intros r (Hr & Er). rewrite Eq in Er by lia. destruct (Z.eqb_spec (bd_equ b) # r e) as [E1|E1]; [|split; [split; assumption|]].
    - exfalso. subst r. destruct Ha as (_ & Ha). congruence.
    - intros ->. destruct He as (_ & He). congruence. }
  pose proof (dok_len _ _ _ HD) as LD. assert (N31 : N < 2 ^ 31) by (destruct Hs as (_ & _ & _ & Hb); exact Hb).
  assert (Cm : forall x y, 0 <= x <= n -> 0 <= y <= n -> (bd_equ b) # x = (bd_equ b) # y -> (bd_equ b') # x = (bd_equ b') # y) by (intros x y Hx Hy Exy; rewrite !Eq by assumption; rewrite Exy; reflexivity).
  assert (Eoo : (bd_equ b') # eo = a /\ (bd_equ b') # do = a). { rewrite !Eq by lia. fold a e. rewrite Z.eqb_refl. replace (a =? e) with false by lia. auto. }
  exists b', g'. split; [exact E|]. split; [|split; [|split; [|exact Cm]]].
  - constructor.
    + exact Sz'.
    + intros i Hi. rewrite Eq by exact Hi. destruct (_ =? e); [destruct Ha; lia|apply Rg; exact Hi].
    + rewrite Eq by lia. rewrite E0. destruct He. replace (0 =? e) with false by lia. reflexivity.
    + intros i Hi. rewrite Eq by lia. destruct (_ =? e); [destruct Ha; lia|apply Ps; exact Hi].
    + intros i Hi. rewrite (Eq i) by exact Hi. destruct Ha as (Ha1 & Ha2). destruct (Z.eqb_spec (bd_equ b) # i e) as [E1|E1].
      * rewrite Eq by lia. rewrite Ha2. replace (a =? e) with false by lia. reflexivity.
      * rewrite Eq by (apply Rg; exact Hi). rewrite Id by exact Hi. replace ((bd_equ b) # i =? e) with false by lia. reflexivity.
    + intros r Hr. destruct (Rr r Hr) as (Hr' & Hre). rewrite VA. rewrite (tot_fused n lab _ _ _ a e D r Hae Hre HF Lb). unfold put. destruct (Z.eqb_spec r a) as [->|]; [|apply Ar; exact Hr'].
      rewrite !Ar by assumption. apply wrap32_small. pose proof (tot_one lab (bd_equ b') D a) as T1. rewrite (tot_fused n lab _ _ _ a e D a Hae ltac:(lia) HF Lb), Z.eqb_refl in T1. lia.
    + intros Hk r Hr. destruct (Rr r Hr) as (Hr' & Hre). rewrite (VV Hk). rewrite (tot_fused n lab _ _ _ a e D r Hae Hre HF Lb). rewrite Fl. unfold put. split; [|apply Vo; assumption]. destruct (Z.eqb_spec r a) as [->|]; [|apply Vo; assumption].
      rewrite (proj1 (Vo Hk a Ha)), (proj1 (Vo Hk e He)). unfold wrap. cbn [is_signed nbits]. rewrite <- Zplus_mod. reflexivity.
    + intros Hk r Hr. destruct (Rr r Hr) as (Hr' & Hre). rewrite Mn. rewrite (lowest_fused n lab px _ _ _ a e D r Hae Hre HF Lb). destruct (Z.eqb_spec r a) as [->|]; [|apply Mi; assumption].
      unfold data_wins in Wi. rewrite Hk in Wi. rewrite !Mi in Wi by assumption. rewrite Mi by assumption. lia.
    + intros r Hr. destruct (Rr r Hr) as (Hr' & Hre). rewrite VE. unfold put. replace (r =? e) with false by lia. apply Ro. exact Hr'.
    + intros i Hi Hi2. rewrite VE. unfold put. rewrite (Eq i) in * by lia. destruct (Z.eqb_spec i e) as [->|Hie].
      * split; [exact Qd|]. destruct He as (_ & He). rewrite He, Z.eqb_refl. exact Wd.
      * destruct (Z.eqb_spec (bd_equ b) # i e) as [E1|E1]; [|apply Ea; assumption]. destruct (Ea i Hi ltac:(congruence)) as (Q1 & W1). split; [exact Q1|]. rewrite E1 in W1. eapply W_trans; eassumption.
    + assert (Cb : forall x y, 1 <= x <= n -> 1 <= y <= n -> (bd_equ b) # x = e -> (bd_equ b) # y = a -> R L x y).
      { intros x y Hx Hy Ex Ey. assert (R1 : R L do eo) by (destruct Ho as [(-> & ->)|(-> & ->)]; auto). destruct (Cl x do Hx Hdo Ex) as [->|Rx]; destruct (Cl y eo Hy Heo Ey) as [->|Ry]; eauto. }
      intros x y Hx Hy Exy. rewrite !Eq in Exy by lia. destruct (Z.eqb_spec (bd_equ b) # x e) as [Ex|Ex]; destruct (Z.eqb_spec (bd_equ b) # y e) as [Ey|Ey]; [apply Cl; congruence|right; apply Cb; auto|right; apply R_sym; apply Cb; auto|apply Cl; congruence].
    + intros Sy p q Hp Hq Cv. apply Cm; auto.
  - destruct g as [g|]; [|subst g'; exact I]. subst g'. cbn [ginv] in *. destruct G as (Gg & Gl & Gc & Ge & (els & Nd & In_els & Ws)).
    assert (Nl : ~ GraphSpec.linked (edges g) eo do) by (intros Hl; apply Gl in Hl; [contradiction| |]; assumption).
    set (x := Edge eo do (wrap te (data_value k L b e))) in *.
    assert (Nf : findEdge g x = -1). { unfold findEdge. destruct (find_from_spec x (edges g) 0) as [(F & _)|(i & f & _ & Hi & Jf & _)]; [exact F|]. exfalso. apply Nl. eapply linked_one; [eapply rd_In; exact Hi|exact Jf]. }
    assert (Eg' : edges (addEdge g x true) = edges g ++ [x]) by (unfold addEdge; rewrite Nf; reflexivity).
    split; [apply addEdge_good; [exact Gg|cbn; lia]|]. rewrite Eg'. split; [|split; [|split]].
    + assert (Lx : GraphSpec.linked (edges g ++ [x]) eo do) by (apply linked_one with x; [apply in_or_app; right; left; reflexivity|left; auto]).
      assert (I0 : incl (edges g) (edges g ++ [x])) by (intros z Hz; apply in_or_app; left; exact Hz).
      intros y z Hy Hz. rewrite !Eq by lia. split.
      * destruct (Z.eqb_spec (bd_equ b) # y e) as [Ey|Ey]; destruct (Z.eqb_spec (bd_equ b) # z e) as [Ez|Ez]; intros Eyz.
        -- apply (linked_incl (edges g)); [exact I0|]. apply Gl; auto; congruence.
        -- eapply linked_trans; [apply (linked_incl (edges g)); [exact I0|]; apply (Gl y do); auto|]. eapply linked_trans; [apply linked_sym; exact Lx|]. apply (linked_incl (edges g)); [exact I0|]. apply Gl; auto.
        -- eapply linked_trans; [apply (linked_incl (edges g)); [exact I0|]; apply (Gl y eo); auto|]. eapply linked_trans; [exact Lx|]. apply (linked_incl (edges g)); [exact I0|]. apply Gl; auto.
        -- apply (linked_incl (edges g)); [exact I0|]. apply Gl; auto.
      * intros Hl. apply linked_snoc in Hl. cbn [src tgt x] in Hl.
        assert (Lr : forall u v, 1 <= u <= n -> GraphSpec.linked (edges g) u v -> 1 <= v <= n).
        { intros u v Hu Huv. induction Huv as [|v w f Huv IH Hf Jf]; [exact Hu|]. destruct (Ge f Hf) as (F1 & F2 & _). destruct Jf as [(<- & <-)|(<- & <-)]; assumption. }
        destruct Hl as [Hl|[(Hl1 & Hl2)|(Hl1 & Hl2)]].
        -- apply Gl in Hl; auto. rewrite Hl. reflexivity.
        -- apply Gl in Hl1; auto. apply Gl in Hl2; auto. fold a in Hl1. fold e in Hl2. rewrite Hl1, <- Hl2, Z.eqb_refl. replace (a =? e) with false by lia. reflexivity.
        -- apply Gl in Hl1; auto. apply Gl in Hl2; auto. fold e in Hl1. fold a in Hl2. rewrite Hl1, <- Hl2, Z.eqb_refl. replace (a =? e) with false by lia. reflexivity.
    + apply acyclic_snoc; [exact Gc|exact Nl].
    + intros f Hf. apply in_app_iff in Hf as [Hf|[<-|[]]]; [apply Ge; exact Hf|]. cbn [src tgt x]. split; [exact Heo|]. split; [exact Hdo|]. destruct Ho as [(-> & ->)|(-> & ->)]; assumption.
    + assert (Ne : ~ In e els) by (intros Hi; apply In_els in Hi; destruct He; intuition congruence).
      exists (els ++ [e]). split; [|split].
      * apply Permutation_NoDup with (e :: els); [apply Permutation_cons_append|]. constructor; assumption.
      * intros y. rewrite in_app_iff. cbn [In]. rewrite In_els. destruct Ha as (Ha1 & Ha2). destruct He as (He1 & He2). split.
        -- intros [(Hy & Ey)|[<-|[]]]; (split; [assumption|]).
           ++ rewrite Eq by lia. destruct (Z.eqb_spec (bd_equ b) # y e) as [E1|E1]; [|exact Ey]. intros <-. congruence.
           ++ rewrite Eq by lia. rewrite He2, Z.eqb_refl. exact Hae.
        -- intros (Hy & Ey). rewrite Eq in Ey by lia. destruct (Z.eq_dec y e) as [->|Hye]; [right; left; reflexivity|left]. split; [exact Hy|]. destruct (Z.eqb_spec (bd_equ b) # y e) as [E1|E1]; [congruence|exact Ey].
      * rewrite !map_app. cbn [map wt x]. rewrite Ws. f_equal; [|rewrite VE; unfold put; rewrite Z.eqb_refl; reflexivity]. apply map_ext_in. intros y Hy. rewrite VE. unfold put. destruct (Z.eqb_spec y e) as [->|]; [contradiction|reflexivity].
  - destruct Eoo as (E1 & E2). destruct Ho as [(-> & ->)|(-> & ->)]; congruence.
Qed.

(** ** A pixel *)
Lemma insert_inv lab D L b cur : dok lab D L -> xinv lab D L b -> ~ In cur D -> 0 <= cur < N -> 1 <= lab cur <= n -> px # cur <= L ->
  (forall q, In q D -> covers se s q cur -> (bd_equ b) # (lab q) = (bd_equ b) # (lab cur)) ->
  exists b', insertPixel k L px # cur (bd_equ b) # (lab cur) b = Some b' /\ bd_equ b' = bd_equ b /\ bd_ext b' = bd_ext b /\ dok lab (cur :: D) L /\ xinv lab (cur :: D) L b'.
Proof.
  intros HD X Nc Hc Hl Hv Ha. pose proof X as [Sz Rg E0 Ps Id Ar Vo Mi Ro Ea Cl Ad].
  destruct (insert_spec k n L px # cur (bd_equ b) # (lab cur) b Sz ltac:(apply Rg; lia)) as (b' & E & Sz' & Q1 & Q2 & VA & VV & VM).
  assert (HD' : dok lab (cur :: D) L). { destruct HD as [ND DI]. constructor; [constructor; assumption|]. intros p [<-|Hp]; [auto|apply DI; exact Hp]. }
  exists b'. split; [exact E|]. split; [exact Q1|]. split; [exact Q2|]. split; [exact HD'|].
  assert (Rt : forall r, is_root b' r -> is_root b r) by (unfold is_root; rewrite Q1; auto).
  assert (Hr : is_root b (bd_equ b) # (lab cur)). { split; [specialize (Rg (lab cur) ltac:(lia)); specialize (Ps (lab cur) Hl); lia|apply Id; lia]. }
  pose proof (dok_len _ _ _ HD') as LD. cbn [length] in LD. assert (N31 : N < 2 ^ 31) by (destruct Hs as (_ & _ & _ & Hb); exact Hb).
  constructor; rewrite ?Q1, ?Q2; auto.
  - intros r Hr'. apply Rt in Hr'. rewrite VA, tot_cons. unfold put. rewrite (Z.eqb_sym r). destruct (Z.eqb_spec (bd_equ b) # (lab cur) r) as [<-|]; [|apply Ar; exact Hr'].
    rewrite Ar by exact Hr'. pose proof (tot_one lab (bd_equ b) D (bd_equ b) # (lab cur)). rewrite wrap32_small by lia. lia.
  - intros Hk r Hr'. apply Rt in Hr'. destruct (VV Hk) as (VB & VF). rewrite VB, VF, tot_cons. unfold put. rewrite (Z.eqb_sym r). destruct (Vo Hk r Hr') as (V1 & V2). destruct (Z.eqb_spec (bd_equ b) # (lab cur) r) as [E1|]; [|auto].
    rewrite E1, V1, V2. split; [|lia]. unfold wrap. cbn [is_signed nbits]. rewrite Zplus_mod_idemp_l. f_equal. lia.
  - intros Hk r Hr'. apply Rt in Hr'. rewrite VM by (rewrite Hk; discriminate). rewrite lowest_cons. unfold put. rewrite (Z.eqb_sym r). destruct (Z.eqb_spec (bd_equ b) # (lab cur) r) as [E1|]; [|apply Mi; assumption]. rewrite E1, Mi by assumption. reflexivity.
  - intros e He Hne. destruct (Ea e He Hne) as (A & B). split; [exact A|apply W_mono; exact B].
  - intros Sy p q [<-|Hp] [<-|Hq] Cv; [reflexivity|symmetry; auto|apply Ha; auto|apply Ad; auto].
Qed.

(** ** A new level *)
Lemma raise_inv fuel lab D L L' b : xinv lab D L b -> L < L' -> (Z.to_nat n <= fuel)%nat ->
  exists b', raise_loop fuel k t2 n L' 1 b = Some (Some b') /\ bd_equ b' = bd_equ b /\ bd_ext b' = bd_ext b /\ xinv lab D L' b'.
Proof.
  intros X HL Hf. pose proof X as [Sz Rg E0 Ps Id Ar Vo Mi Ro Ea Cl Ad].
  destruct (raise_all k t2 n fuel L' ltac:(apply wrap32_small; lia) T2 Hnt 1 b Sz ltac:(lia) ltac:(lia)) as (b' & E & Sz' & Q1 & Q2 & Q3 & Q4 & V).
  exists b'. split; [exact E|]. split; [exact Q1|]. split; [exact Q2|].
  assert (Rt : forall r, is_root b' r -> is_root b r) by (unfold is_root; rewrite Q1; auto).
  constructor; rewrite ?Q1, ?Q2, ?Q3, ?Q4; auto.
  - intros Hk r Hr. apply Rt in Hr. pose proof Hr as (Hr1 & Hr2). destruct (Vo Hk r Hr) as (V1 & V2). destruct (V Hk r ltac:(lia)) as (W1 & W2). cbn zeta in W1, W2. rewrite W1, W2, V1, V2, Hr2, Z.eqb_refl.
    replace (1 <=? r) with true by lia. replace (L <? L') with true by lia. cbn [andb]. split; [|reflexivity]. unfold wrap. cbn [is_signed nbits]. rewrite Ar by exact Hr. rewrite Zplus_mod_idemp_l. rewrite (tot_shift lab px (bd_equ b) D r L L'). reflexivity.
  - intros a a' H1 H2 H3. destruct (Cl a a' H1 H2 H3) as [->|H4]; [left; reflexivity|right]. eapply R_mono; [exact H4|lia].
Qed.

Lemma create_inv lab : xinv lab [] (tmin t) (createBasins t (n + 1)).
Proof.
  assert (T0 : tmin t = 0) by (destruct (u816 _ Ht); assumption).
  assert (Eq : forall i, 0 <= i <= n -> (bd_equ (createBasins t (n + 1))) # i = i) by (intros i Hi; unfold createBasins; cbn [bd_equ]; apply zseq_at; lia).
  constructor.
  - apply create_sized. exact Hn.
  - intros i Hi. rewrite Eq; lia.
  - apply Eq. lia.
  - intros i Hi. rewrite Eq; lia.
  - intros i Hi. rewrite !Eq by (rewrite ?Eq; lia). reflexivity.
  - intros r (Hr & _). unfold createBasins. cbn [bd_areas]. rewrite all_of_at by lia. reflexivity.
  - intros _ r (Hr & _). unfold createBasins. cbn [bd_vol bd_flood]. rewrite !all_of_at by lia. rewrite T0. split; reflexivity.
  - intros _ r (Hr & _). unfold createBasins. cbn [bd_min]. rewrite all_of_at by lia. reflexivity.
  - intros r (Hr & _). unfold createBasins. cbn [bd_ext]. rewrite all_of_at by lia. reflexivity.
  - intros e He Hne. rewrite Eq in Hne by lia. congruence.
  - intros a a' H1 H2 H3. rewrite !Eq in H3 by lia. auto.
  - intros _ p q [].
Qed.

Lemma create_graph J g : ginv J (createBasins t (n + 1)) (match g with None => None | Some g => Some (clear g) end).
Proof.
  destruct g as [g|]; [|exact I]. assert (Eq : forall i, 0 <= i <= n -> (bd_equ (createBasins t (n + 1))) # i = i) by (intros i Hi; unfold createBasins; cbn [bd_equ]; apply zseq_at; lia).
  cbn [ginv]. unfold gok. split; [apply graph0_good|]. split; [|split; [|split]].
  - intros a a' Ha Ha'. rewrite !Eq by lia. cbn. split; [intros ->; constructor|]. intros H. inversion H; subst; [reflexivity|]. contradiction.
  - intros l1 e l2 E. destruct l1; discriminate.
  - intros e [].
  - exists []. split; [constructor|]. split; [|reflexivity]. intros a. split; [intros []|]. intros (Ha & Hne). rewrite Eq in Hne by lia. congruence.
Qed.

(** ** The neighbours of a pixel *)
Lemma ext_scan lab D L last cur (J : Z -> Z -> Prop) l : dok lab D L -> 0 <= cur < N -> ~ In cur D -> 1 <= lab cur <= n ->
  (forall nb, In nb l -> 0 <= nb < N) -> (forall nb, In nb l -> In nb D -> J (lab nb) (lab cur) /\ J (lab cur) (lab nb)) ->
  (forall nb b, In nb l -> In nb D -> xinv lab D L b -> (bd_equ b) # (lab nb) <> (bd_equ b) # (lab cur) ->
     R L (lab nb) (lab cur) /\ forall eo do, (eo = lab nb /\ do = lab cur) \/ (eo = lab cur /\ do = lab nb) -> data_wins k b (bd_equ b) # eo (bd_equ b) # do ->
       Q (bd_equ b) # do (wrap te (data_value k L b (bd_equ b) # do)) /\ W D (bd_equ b) # do (bd_equ b) # eo) ->
  forall fl fl' b g stat, xinv lab D L b -> ginv J b g -> Z.of_nat (length stat) = N -> (forall p, 0 <= p < N -> (stat # p = XQ_DONE <-> In p D)) ->
  Z.of_nat (length (fl_lbl fl)) = N -> (forall p, In p D -> (fl_lbl fl) # p = lab p) -> (fl_lbl fl) # cur = lab cur -> fold_opt (flood_neighbor t px cur) l fl = Some fl' ->
  exists b' g' stat', fold_opt (ext_neighbor k t te n px cur) l (EX fl b g stat L last) = Some (EX fl' b' g' stat' L last) /\ xinv lab D L b' /\ ginv J b' g' /\
    Z.of_nat (length stat') = N /\ (forall p, 0 <= p < N -> (stat' # p = XQ_DONE <-> In p D)) /\
    (forall a a', 0 <= a <= n -> 0 <= a' <= n -> (bd_equ b) # a = (bd_equ b) # a' -> (bd_equ b') # a = (bd_equ b') # a') /\
    (forall nb, In nb l -> In nb D -> (bd_equ b') # (lab nb) = (bd_equ b') # (lab cur)).
Proof.
  intros HD Hc Nc Hlc. induction l as [|nb l IH]; intros Hin HJ HM fl fl' b g stat X G Ls St Ll Lab Lc F.
  { cbn in F. injection F as <-. exists b, g, stat. split; [reflexivity|]. split; [exact X|]. split; [exact G|]. split; [exact Ls|]. split; [exact St|]. split; [auto|]. intros nb []. }
  specialize (IH ltac:(intros; apply Hin; right; assumption) ltac:(intros; apply HJ; [right|]; assumption) ltac:(intros; apply HM; [right| | |]; assumption)).
  assert (Hnb : 0 <= nb < N) by (apply Hin; left; reflexivity).
  cbn [fold_opt] in F |- *. unfold flood_neighbor at 1 in F. unfold ext_neighbor at 1. cbn [ex_fl ex_b ex_g ex_stat ex_level ex_last].
  rewrite (rd_znth 0 (fl_lbl fl) nb), (rd_znth 0 (fl_lbl fl) cur) in * by lia. cbn [option_bind] in F |- *. rewrite Lc in *.
  destruct (Z.eqb_spec (fl_lbl fl) # nb 0) as [E|E].
  - assert (Nd : ~ In nb D) by (intros Hi; pose proof (Lab nb Hi); destruct HD as [_ DI]; specialize (DI nb Hi); lia).
    rewrite (rd_znth 0 px nb) in * by lia. cbn [option_bind] in F |- *. destruct (hq_push t false (fl_q fl) px # nb nb) as [q|]; [|discriminate]. cbn [option_bind] in F |- *.
    rewrite wr_upd in * by lia. cbn [option_bind] in F |- *. rewrite (wr_upd stat) by lia. cbn [option_bind].
    destruct (IH (FL (upd (fl_lbl fl) nb (lab cur)) q) fl' b g (upd stat nb XQ_QUEUED) X G) as (b' & g' & stat' & F' & X' & G' & Ls' & St' & Cm & Al).
    + rewrite upd_length. exact Ls.
    + intros p Hp. rewrite znth_upd' by lia. destruct (Z.eqb_spec p nb) as [->|]; [|apply St; exact Hp]. split; [discriminate|contradiction].
    + cbn [fl_lbl]. rewrite upd_length. exact Ll.
    + intros p Hp. cbn [fl_lbl]. rewrite znth_upd' by lia. destruct (Z.eqb_spec p nb) as [->|]; [contradiction|]. apply Lab. exact Hp.
    + cbn [fl_lbl]. rewrite znth_upd' by lia. destruct (Z.eqb_spec cur nb) as [->|]; [reflexivity|exact Lc].
    + exact F.
    + exists b', g', stat'. split; [exact F'|]. split; [exact X'|]. split; [exact G'|]. split; [exact Ls'|]. split; [exact St'|]. split; [exact Cm|]. intros q' [<-|Hq] Hd; [contradiction|]. apply Al; assumption.
  - cbn [option_bind] in F. rewrite (rd_znth 0 stat nb) by lia. cbn [option_bind]. destruct (Z.eqb_spec stat # nb XQ_DONE) as [Es|Es].
    + assert (Hd : In nb D) by (apply St; assumption). pose proof (Lab nb Hd) as El. rewrite El. pose proof (d_in _ _ _ HD nb Hd) as (_ & Hln & _).
      pose proof (x_sz _ _ _ _ X) as (Lq & _). rewrite (rd_znth 0 (bd_equ b) (lab nb)), (rd_znth 0 (bd_equ b) (lab cur)) by lia. cbn [option_bind].
      destruct (Z.eqb_spec (bd_equ b) # (lab nb) (bd_equ b) # (lab cur)) as [Eq|Eq]; cbn [negb].
      * cbn [option_bind]. destruct (IH fl fl' b g stat X G Ls St Ll Lab Lc F) as (b' & g' & stat' & F' & X' & G' & Ls' & St' & Cm & Al).
        exists b', g', stat'. split; [exact F'|]. split; [exact X'|]. split; [exact G'|]. split; [exact Ls'|]. split; [exact St'|]. split; [exact Cm|]. intros q' [<-|Hq] Hd'; [apply Cm; [lia|lia|exact Eq]|apply Al; assumption].
      * destruct (HM nb b (or_introl eq_refl) Hd X Eq) as (HR & HQW). destruct (HJ nb (or_introl eq_refl) Hd) as (J1 & J2).
        assert (Mm : (Z.min (lab cur) (lab nb) = lab cur /\ Z.max (lab cur) (lab nb) = lab nb) \/ (Z.min (lab cur) (lab nb) = lab nb /\ Z.max (lab cur) (lab nb) = lab cur)) by lia.
        destruct (merge_inv lab D L b g J (Z.min (lab cur) (lab nb)) (Z.max (lab cur) (lab nb)) HD X G) as (b1 & g1 & E1 & X1 & G1 & Ee & Cm1); [lia|lia| | | | | |].
        -- destruct Mm as [(-> & ->)|(-> & ->)]; congruence.
        -- destruct Mm as [(-> & ->)|(-> & ->)]; [apply R_sym|]; exact HR.
        -- destruct Mm as [(-> & ->)|(-> & ->)]; assumption.
        -- destruct Mm as [(-> & ->)|(-> & ->)]; assumption.
        -- intros eo do Ho Wi. apply HQW; [|exact Wi]. destruct Mm as [(M1 & M2)|(M1 & M2)]; rewrite M1, M2 in Ho; tauto.
        -- rewrite E1. cbn [option_bind]. destruct (IH fl fl' b1 g1 stat X1 G1 Ls St Ll Lab Lc F) as (b' & g' & stat' & F' & X' & G' & Ls' & St' & Cm & Al).
           exists b', g', stat'. split; [exact F'|]. split; [exact X'|]. split; [exact G'|]. split; [exact Ls'|]. split; [exact St'|]. split.
           ++ intros a a' H1 H2 H3. apply Cm; auto.
           ++ intros q' [<-|Hq] Hd'; [|apply Al; assumption]. apply Cm; [lia|lia|]. destruct Mm as [(M1 & M2)|(M1 & M2)]; rewrite M1, M2 in Ee; congruence.
    + assert (Nd : ~ In nb D) by (intros Hi; apply Es; apply St; assumption).
      cbn [option_bind]. destruct (IH fl fl' b g stat X G Ls St Ll Lab Lc F) as (b' & g' & stat' & F' & X' & G' & Ls' & St' & Cm & Al).
      exists b', g', stat'. split; [exact F'|]. split; [exact X'|]. split; [exact G'|]. split; [exact Ls'|]. split; [exact St'|]. split; [exact Cm|]. intros q' [<-|Hq] Hd'; [contradiction|]. apply Al; assumption.
Qed.

(** ** The loop *)
Notation binv := (binv t se s px m).
Notation below := (below se s px m).
(** Two basins meet. *)
Definition touch (lbl : list Z) (a a' : Z) : Prop := exists p q, (covers se s q p \/ covers se s p q) /\ lbl # p = a /\ lbl # q = a'.
(** A pixel that has got its label from a neighbour has a marker that is done. *)
Definition src_ok (lbl D : list Z) : Prop := forall p, 0 <= p < N -> lbl # p <> 0 -> m # p <> 0 \/ exists d, In d D /\ m # d = lbl # p.

Record linv (lbl : list Z) (q : hqueue) (r : list (Z * Z)) (D : list Z) (L : Z) (b : basin_data) (g : option graph) (stat : list Z) (last : option Z) : Prop := {
  l_b : binv L lbl q r;
  l_sl : Z.of_nat (length stat) = N;
  l_stat : forall p, 0 <= p < N -> (stat # p = XQ_DONE <-> In p D);
  l_D : forall p, In p D <-> 0 <= p < N /\ lbl # p <> 0 /\ ~ queued r p;
  l_dok : dok (fun p => lbl # p) D L;
  l_lbl : forall p, 0 <= p < N -> 0 <= lbl # p <= n;
  l_x : xinv (fun p => lbl # p) D L b;
  l_g : ginv (touch lbl) b g;
  l_src : src_ok lbl D;
  l_last : last = hd_error D;
  l_max : L = tmin t \/ exists p, In p D /\ px # p = L }.

Context (merge_ok : forall h lbl q r D L b cur nb, binv h lbl q r -> queued r cur -> 0 <= cur < N -> lbl # cur <> 0 ->
  (forall p, In p D <-> 0 <= p < N /\ lbl # p <> 0 /\ ~ queued r p) -> dok (fun p => lbl # p) D h -> (forall p, 0 <= p < N -> 0 <= lbl # p <= n) -> L = Z.max h px # cur -> L <= tmax t ->
  (forall p, below L p -> In p D) -> src_ok lbl D -> xinv (fun p => lbl # p) D L b -> In nb D -> covers se s nb cur -> (bd_equ b) # (lbl # nb) <> (bd_equ b) # (lbl # cur) ->
  R L lbl # nb lbl # cur /\ forall eo do, (eo = lbl # nb /\ do = lbl # cur) \/ (eo = lbl # cur /\ do = lbl # nb) -> data_wins k b (bd_equ b) # eo (bd_equ b) # do ->
    Q (bd_equ b) # do (wrap te (data_value k L b (bd_equ b) # do)) /\ W D (bd_equ b) # do (bd_equ b) # eo).

Lemma ext_turn fuel lbl q r D L b g stat last : linv lbl q r D L b g stat last -> r <> [] -> Z.of_nat (length r + count 0 lbl) < 2 ^ 63 -> (Z.to_nat n <= fuel)%nat ->
  exists cur q1 lbl' q' r' D' L' b' g' stat', hq_pop t false q = Some (cur, q1) /\
    flood_pixel (flood_neighbor t px) se s cur (FL lbl q1) = Some (FL lbl' q') /\
    ext_pixel fuel k t t2 te n se s px cur (EX (FL lbl q1) b g stat L last) = Some (Some (EX (FL lbl' q') b' g' stat' L' (Some cur))) /\
    linv lbl' q' r' D' L' b' g' stat' (Some cur) /\ (length r' + count 0 lbl' + 1 = length r + count 0 lbl)%nat.
Proof.
  intros [IV Ls St HD Dk Hl X G Src _ Mx] Hr Big Hf.
  destruct (flood_turn t se s px m Ht Hs Hpts Hpl Lp Tp L lbl q r IV Hr Big) as (cur & q1 & l & lbl' & q' & r' & Ep & Hc & Hlc & Hqc & El & N1 & N2 & F & IV' & V' & R' & Bl & C').
  set (L' := Z.max L px # cur) in *. exists cur, q1, lbl', q', r', (cur :: D), L'.
  assert (Hnc : ~ In cur D) by (intros Hi; apply HD in Hi; tauto). assert (Hcl : 1 <= lbl # cur <= n) by (specialize (Hl cur Hc); lia).
  assert (Keep : forall p, 0 <= p < N -> lbl # p <> 0 -> lbl' # p = lbl # p) by (intros p Hp Hn0; rewrite V' by exact Hp; replace (lbl # p =? 0) with false by lia; reflexivity).
  assert (KD : forall p, In p D -> lbl' # p = lbl # p) by (intros p Hi; apply HD in Hi; apply Keep; tauto).
  (* the level *)
  assert (E1 : exists b1, (if px # cur >? L then fuel_bind (raise_loop fuel k t2 n px # cur 1 b) (fun b => Some (Some (EX (FL lbl q1) b g stat px # cur last))) else Some (Some (EX (FL lbl q1) b g stat L last)))
      = Some (Some (EX (FL lbl q1) b1 g stat L' last)) /\ bd_equ b1 = bd_equ b /\ bd_ext b1 = bd_ext b /\ xinv (fun p => lbl # p) D L' b1).
  { destruct (Z.gtb_spec px # cur L) as [H|H].
    - destruct (raise_inv fuel (fun p => lbl # p) D L px # cur b X ltac:(lia) Hf) as (b1 & E1 & Q1 & Q2 & X1). rewrite E1. exists b1. replace L' with (px # cur) by (unfold L'; lia). split; [reflexivity|]. auto.
    - exists b. replace L' with L by (unfold L'; lia). split; [reflexivity|]. auto. }
  destruct E1 as (b1 & E1 & Q1 & Q2 & X1).
  assert (Dk1 : dok (fun p => lbl # p) D L') by (destruct Dk as [ND DI]; constructor; [exact ND|]; intros p Hp; specialize (DI p Hp); unfold L'; lia).
  assert (G1 : ginv (touch lbl') b1 g).
  { apply ginv_data with b; [exact Q1|exact Q2|]. apply ginv_ext with (touch lbl); [|exact G]. intros a a' Ha Ha' (p & q0 & Cv & Hp & Hq). exists p, q0. assert (RR : 0 <= p < N /\ 0 <= q0 < N) by (destruct Cv as [Cv|Cv]; destruct (covers_range _ _ _ _ Cv); auto). destruct RR as (Rp & Rq). split; [exact Cv|]. split; rewrite Keep; auto; lia. }
  assert (Hin : forall nb, In nb l -> 0 <= nb < N) by (intros nb Hi; apply N1; exact Hi).
  assert (HJ : forall nb, In nb l -> In nb D -> touch lbl' lbl # nb lbl # cur /\ touch lbl' lbl # cur lbl # nb).
  { intros nb Hi Hd. destruct (N1 nb Hi) as (Hnb & Cv). split; [exists nb, cur; split; [right; exact Cv|]|exists cur, nb; split; [left; exact Cv|]]; rewrite ?(KD nb) by exact Hd; rewrite (Keep cur) by assumption; auto. }
  assert (LM : L' <= tmax t).
  { assert (Tx : forall p, 0 <= p < N -> px # p <= tmax t) by (intros p Hp0; pose proof (typed_at t px p Tp ltac:(lia)) as Iy; unfold inty in Iy; lia). pose proof (Tx cur Hc) as TC.
    assert (TL : L <= tmax t) by (destruct Mx as [->|(p & Hp0 & <-)]; [destruct t; cbn; lia|apply Tx; apply HD; exact Hp0]). unfold L'. lia. }
  assert (HM : forall nb b0, In nb l -> In nb D -> xinv (fun p => lbl # p) D L' b0 -> (bd_equ b0) # (lbl # nb) <> (bd_equ b0) # (lbl # cur) ->
     R L' lbl # nb lbl # cur /\ forall eo do, (eo = lbl # nb /\ do = lbl # cur) \/ (eo = lbl # cur /\ do = lbl # nb) -> data_wins k b0 (bd_equ b0) # eo (bd_equ b0) # do ->
       Q (bd_equ b0) # do (wrap te (data_value k L' b0 (bd_equ b0) # do)) /\ W D (bd_equ b0) # do (bd_equ b0) # eo).
  { intros nb b0 Hi Hd X0 Hne. destruct (N1 nb Hi) as (Hnb & Cv). apply (merge_ok L lbl q r D L' b0 cur nb); auto. intros p B. apply HD. destruct (Bl p B) as (B1 & B2). split; [|auto]. clear -B. induction B as [p Hp|p nb' B IH Cv]; [exact Hp|apply (covers_range _ _ _ _ Cv)]. }
  destruct (ext_scan (fun p => lbl # p) D L' last cur (touch lbl') l Dk1 Hc Hnc Hcl Hin HJ HM (FL lbl q1) (FL lbl' q') b1 g stat X1 G1 Ls St (b_len _ _ _ _ _ _ _ _ _ IV) (fun _ _ => eq_refl) eq_refl F) as (b2 & g2 & stat2 & F2 & X2 & G2 & Ls2 & St2 & Cm & Al).
  - destruct (insert_inv (fun p => lbl # p) D L' b2 cur Dk1 X2 Hnc Hc Hcl) as (b3 & E3 & Q3 & Q4 & Dk3 & X3); [unfold L'; lia| |].
    { intros p Hp Cv. destruct (N2 p Cv) as [->|Hi]; [reflexivity|]. apply Al; assumption. }
    assert (KcD : forall p, In p (cur :: D) -> lbl' # p = lbl # p) by (intros p [<-|Hp]; [apply Keep; assumption|apply KD; exact Hp]).
    exists b3, g2, (upd stat2 cur XQ_DONE). split; [exact Ep|]. split; [rewrite El; exact F|]. split; [|split; [|exact C']].
    + unfold ext_pixel. rewrite (rd_znth 0 px cur) by lia. cbn [option_bind ex_level ex_b ex_fl ex_g ex_stat ex_last]. rewrite E1. unfold fuel_bind at 1. cbn [option_bind]. rewrite El, F2. cbn [option_bind ex_level ex_b ex_fl ex_g ex_stat ex_last fl_lbl].
      pose proof (b_len _ _ _ _ _ _ _ _ _ IV') as Ll'. rewrite (rd_znth 0 lbl' cur) by lia. cbn [option_bind]. rewrite (Keep cur Hc Hlc). pose proof (x_sz _ _ _ _ X2) as (Lq & _). rewrite (rd_znth 0 (bd_equ b2)) by lia. cbn [option_bind]. rewrite E3. cbn [option_bind].
      rewrite wr_upd by lia. reflexivity.
    + assert (HD' : forall p, In p (cur :: D) <-> 0 <= p < N /\ lbl' # p <> 0 /\ ~ queued r' p).
      { intros p. split.
        - intros [<-|Hp].
          + split; [exact Hc|]. split; [rewrite Keep; assumption|]. intros Hq. apply R' in Hq as [(_ & H)|(_ & H)]; congruence.
          + pose proof Hp as Hp'. apply HD in Hp as (Hp1 & Hp2 & Hp3). split; [exact Hp1|]. split; [rewrite Keep; assumption|]. intros Hq. apply R' in Hq as [(H & _)|(_ & H)]; congruence.
        - intros (Hp & Hlp & Hq). destruct (Z.eq_dec p cur) as [->|Hne]; [left; reflexivity|right]. apply HD. split; [exact Hp|]. destruct (Z.eq_dec lbl # p 0) as [E0|E0].
          + exfalso. rewrite V' in Hlp by exact Hp. rewrite E0 in Hlp. cbn [Z.eqb] in Hlp. destruct (existsb (Z.eqb p) l) eqn:Ex; [|congruence]. apply existsb_exists in Ex as (y & Hy & Ey). apply Z.eqb_eq in Ey. subst y. apply Hq. apply R'. right. auto.
          + split; [exact E0|]. intros H. apply Hq. apply R'. left. auto. }
      constructor.
      * exact IV'.
      * rewrite upd_length. exact Ls2.
      * intros p Hp. rewrite znth_upd' by lia. destruct (Z.eqb_spec p cur) as [->|Hne]; [split; [left; reflexivity|reflexivity]|]. rewrite St2 by exact Hp. cbn [In]. split; [auto|intros [->|H]; [congruence|exact H]].
      * exact HD'.
      * destruct Dk3 as [ND DI]. constructor; [exact ND|]. intros p Hp. rewrite KcD by exact Hp. apply DI. exact Hp.
      * intros p Hp. rewrite V' by exact Hp. destruct (lbl # p =? 0); [destruct (existsb _ _); lia|apply Hl; exact Hp].
      * apply xinv_ext with (fun p => lbl # p); [exact KcD|exact X3].
      * apply ginv_data with b2; [exact Q3|exact Q4|exact G2].
      * intros p Hp Hlp. destruct (Z.eq_dec lbl # p 0) as [E0|E0].
        -- right. rewrite V' in * by exact Hp. rewrite E0 in *. cbn [Z.eqb] in *. destruct (existsb (Z.eqb p) l); [|congruence].
           destruct (Src cur Hc Hlc) as [Hm|(d & Hd & Em)]; [exists cur; split; [left; reflexivity|]; symmetry; apply (b_mark _ _ _ _ _ _ _ _ _ IV); assumption|exists d; split; [right; exact Hd|exact Em]].
        -- rewrite Keep by assumption. destruct (Src p Hp E0) as [Hm|(d & Hd & Em)]; [left; exact Hm|right; exists d; split; [right; exact Hd|exact Em]].
      * reflexivity.
      * destruct (Z.le_gt_cases px # cur L) as [Hle|Hgt].
        -- replace L' with L by (unfold L'; lia). destruct Mx as [Mx|(p & Hp & Mx)]; [left; exact Mx|right; exists p; split; [right; exact Hp|exact Mx]].
        -- right. exists cur. split; [left; reflexivity|unfold L'; lia].
Qed.

Lemma ext_loop_ok fuel : (Z.to_nat n <= fuel)%nat -> forall j lbl q r D L b g stat last, linv lbl q r D L b g stat last -> (length r + count 0 lbl <= j)%nat -> Z.of_nat (length r + count 0 lbl) < 2 ^ 63 ->
  exists lbl' q' D' L' b' g' stat' last', ext_loop fuel k t t2 te j n se s px (EX (FL lbl q) b g stat L last) = Some (Some (EX (FL lbl' q') b' g' stat' L' last')) /\
    flood_loop j t se s px (FL lbl q) = Some (Some (FL lbl' q')) /\ linv lbl' q' [] D' L' b' g' stat' last'.
Proof.
  intros Hf. induction j as [|j IH]; intros lbl q r D L b g stat last IV Hj Big; cbn [ext_loop flood_loop]; unfold hq_isEmpty; cbn [fl_q fl_lbl ex_fl ex_b ex_g ex_stat ex_level ex_last]; rewrite (ho_size _ _ _ _ (b_q _ _ _ _ _ _ _ _ _ (l_b _ _ _ _ _ _ _ _ _ IV))).
  - destruct r; [|cbn in Hj; lia]. cbn. exists lbl, q, D, L, b, g, stat, last. auto.
  - destruct r as [|e0 r0] eqn:Er; [cbn; exists lbl, q, D, L, b, g, stat, last; auto|]. rewrite <- Er in *. replace (Z.of_nat (length r) =? 0) with false by (rewrite Er; cbn; lia).
    destruct (ext_turn fuel lbl q r D L b g stat last IV ltac:(rewrite Er; discriminate) Big Hf) as (cur & q1 & lbl' & q' & r' & D' & L' & b' & g' & stat' & Ep & F1 & F2 & IV' & C').
    rewrite Ep. cbn [option_bind]. rewrite F1, F2. unfold fuel_bind at 1. cbn [option_bind].
    apply (IH _ _ _ _ _ _ _ _ _ IV'); lia.
Qed.

Lemma ext_start q r g : hq_ok t false q r -> NoDup (map snd r) -> (forall v p, In (v, p) r <-> 0 <= p < Z.of_nat (length m) /\ v = px # p /\ m # p <> 0) -> (forall p, 0 <= p < N -> 0 <= m # p <= n) ->
  linv m q r [] (tmin t) (createBasins t (n + 1)) (match g with None => None | Some g => Some (clear g) end) (map (fun _ => XQ_CANDIDATE) px) None.
Proof.
  intros HQ ND HR Hm. pose proof (flood_start t se s px m Ht Lp Lm Tp q r HQ ND HR) as [B1 B2 B3 B4 B5 B6 B7 B8].
  assert (T0 : tmin t = 0) by (destruct (u816 _ Ht); assumption).
  assert (Nn : forall p, 0 <= p < N -> 0 <= px # p). { intros p Hp. pose proof (typed_at t px p Tp ltac:(lia)) as I. unfold inty in I. lia. }
  assert (Qd : forall p, 0 <= p < N -> m # p <> 0 -> queued r p). { intros p Hp Hmp. apply in_map_iff. exists (px # p, p). split; [reflexivity|]. apply HR. split; [lia|auto]. }
  constructor.
  - constructor; auto.
    + intros p B. exfalso. rewrite T0 in B. assert (Hp : 0 <= p < N) by (clear -B; induction B as [p Hp|p nb' B IH Cv]; [exact Hp|apply (covers_range _ _ _ _ Cv)]). specialize (Nn p Hp). apply below_lt in B. lia.
    + intros p Hp Hmp. destruct (B8 p Hp Hmp) as (k0 & K1 & K2 & K3). exists k0. split; [exact K1|]. split; [exact K2|]. specialize (Nn p Hp). lia.
  - rewrite map_length. exact Lp.
  - intros p Hp. split; [|intros []]. erewrite znth_rd; [|rewrite rd_map, (rd_znth 0 px) by lia; reflexivity]. discriminate.
  - intros p. split; [intros []|]. intros (Hp & Hmp & Hq). exfalso. apply Hq. apply Qd; assumption.
  - constructor; [constructor|]. intros p [].
  - exact Hm.
  - apply create_inv.
  - apply create_graph.
  - intros p Hp Hmp. left. exact Hmp.
  - reflexivity.
  - left. reflexivity.
Qed.
End Invariant.
