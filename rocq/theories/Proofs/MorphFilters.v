From Verif Require Export Proofs.MorphAlgebra.
From Verif Require Import Proofs.PixelProofs.

Lemma can1_ext op bv s se F G : (forall x y z, inside s x y z -> F x y z = G x y z) -> forall x y z, can1 op bv s se F x y z = can1 op bv s se G x y z.
Proof.
  intros H x y z. unfold can1. destruct (se_points se) as [|p0 pts]; [reflexivity|].
  rewrite (gval_ext bv s _ F G p0) by exact H. generalize (gval bv s (se_odd se) G p0 x y z).
  induction pts as [|p pts IH]; intros a; [reflexivity|]. cbn [fold_left]. rewrite (gval_ext bv s _ F G p) by exact H. apply IH.
Qed.

Lemma cann_ext op bv s se n F G : (forall x y z, inside s x y z -> F x y z = G x y z) ->
  forall x y z, inside s x y z -> Nat.iter n (can1 op bv s se) F x y z = Nat.iter n (can1 op bv s se) G x y z.
Proof.
  intros H. induction n as [|n IH]; intros x y z Hi; [apply H; exact Hi|]. apply (can1_ext op bv s se _ _ IH).
Qed.

Lemma pxv_mk s F x y z : wf_dims s -> inside s x y z -> pxv (mk_img s F) x y z = F x y z.
Proof. intros Hw Hi. apply pxv_is. apply mk_img_is; auto. Qed.

Lemma good_mk im F : good_img im -> good_img (mk_img (sz im) F).
Proof. intros (W & N & B). split; [apply mk_img_wf; apply W|]. split; [exact N|exact B]. Qed.

Notation Dn t s se := (Nat.iter (Z.to_nat (se_size se)) (can1 px_sup (tmin t) s se)).
Notation En t s se := (Nat.iter (Z.to_nat (se_size se)) (can1 px_inf (tmax t) s (transpose se))).

Section Eq.
Variables (t : ity) (junk : Z -> Z) (se : strelt) (im : img).
Hypothesis Him : good_img im.
Hypothesis HG : good_se se (sz im).
Local Notation s := (sz im).

Lemma dilate_eq cs alias out : (forall k, legal_conf (dh s) (cs k)) -> wf_img out -> sz out = s -> (alias = true -> out = im) ->
  dilate junk cs (tmin t) se alias im out = Some (1, mk_img s (Dn t s se (pxv im))).
Proof.
  intros HL Ho Hs HA. destruct HG as (HT & Hn & HF & HF' & HP).
  destruct (dilate_fun junk cs (tmin t) se alias im out) as (R & E & HR); auto. rewrite E. do 2 f_equal. apply mk_img_ext.
  apply (passn_can px_sup Z.le (tmin t) s sup_lub le_eq se (typed_nonempty se HT)). exact HR.
Qed.

Lemma erode_eq cs alias out : (forall k, legal_conf (dh s) (cs k)) -> wf_img out -> sz out = s -> (alias = true -> out = im) ->
  erode junk cs (tmax t) se alias im out = Some (1, mk_img s (En t s se (pxv im))).
Proof.
  intros HL Ho Hs HA. destruct HG as (HT & Hn & HF & HF' & HP).
  destruct (erode_fun junk cs (tmax t) se alias im out) as (R & E & HR); auto. rewrite E. do 2 f_equal. apply mk_img_ext.
  apply (passn_can px_inf Z.ge (tmax t) s inf_lub ge_eq (transpose se) (typed_nonempty _ (transpose_typed se HT))). exact HR.
Qed.
End Eq.

Lemma wf_junk junk im : wf_img im -> wf_img (Img (sz im) (map junk (zseq (pixelCount (sz im))))).
Proof.
  intros (W & _). destruct (junk_mk (sz im) W junk) as (J & ->). apply mk_img_wf. exact W.
Qed.

Section Filt.
Variables (t : ity) (junk : Z -> Z) (se : strelt) (im : img).
Hypothesis Him : good_img im.
Hypothesis HG : good_se se (sz im).
Local Notation s := (sz im).
Variables (cs1 cs2 : nat -> conf) (alias : bool) (out : img).
Hypothesis HL1 : forall k, legal_conf (dh s) (cs1 k).
Hypothesis HL2 : forall k, legal_conf (dh s) (cs2 k).
Hypothesis Ho : wf_img out.
Hypothesis Hs : sz out = s.
Hypothesis HA : alias = true -> out = im.

Lemma Ws : wf_dims s.
Proof. apply Him. Qed.

Lemma open_eq : open_im t junk cs1 cs2 se alias im out = Some (1, mk_img s (Dn t s se (En t s se (pxv im)))).
Proof.
  unfold open_im. rewrite same_size_true by (symmetry; exact Hs). cbn [negb]. destruct (isInplaceSafe se).
  - rewrite (erode_eq t junk se im Him HG cs1 alias out HL1 Ho Hs HA). cbn [option_bind snd].
    rewrite (dilate_eq t junk se (mk_img s (En t s se (pxv im))) (good_mk im _ Him) HG cs2 true _ HL2 (mk_img_wf s _ Ws) eq_refl (fun _ => eq_refl)).
    do 2 f_equal. cbn [sz mk_img]. apply mk_img_ext. intros x y z Hi. apply cann_ext; [|exact Hi]. intros x' y' z' Hi'. apply pxv_mk; [apply Ws|exact Hi'].
  - rewrite (erode_eq t junk se im Him HG cs1 false _ HL1 (wf_junk junk im (proj1 Him)) eq_refl ltac:(discriminate)). cbn [option_bind snd].
    rewrite (dilate_eq t junk se (mk_img s (En t s se (pxv im))) (good_mk im _ Him) HG cs2 false out HL2 Ho Hs ltac:(discriminate)).
    do 2 f_equal. cbn [sz mk_img]. apply mk_img_ext. intros x y z Hi. apply cann_ext; [|exact Hi]. intros x' y' z' Hi'. apply pxv_mk; [apply Ws|exact Hi'].
Qed.

Lemma close_eq : close_im t junk cs1 cs2 se alias im out = Some (1, mk_img s (En t s se (Dn t s se (pxv im)))).
Proof.
  unfold close_im. rewrite same_size_true by (symmetry; exact Hs). cbn [negb]. destruct (isInplaceSafe se).
  - rewrite (dilate_eq t junk se im Him HG cs1 alias out HL1 Ho Hs HA). cbn [option_bind snd].
    rewrite (erode_eq t junk se (mk_img s (Dn t s se (pxv im))) (good_mk im _ Him) HG cs2 true _ HL2 (mk_img_wf s _ Ws) eq_refl (fun _ => eq_refl)).
    do 2 f_equal. cbn [sz mk_img]. apply mk_img_ext. intros x y z Hi. apply cann_ext; [|exact Hi]. intros x' y' z' Hi'. apply pxv_mk; [apply Ws|exact Hi'].
  - rewrite (dilate_eq t junk se im Him HG cs1 false _ HL1 (wf_junk junk im (proj1 Him)) eq_refl ltac:(discriminate)). cbn [option_bind snd].
    rewrite (erode_eq t junk se (mk_img s (Dn t s se (pxv im))) (good_mk im _ Him) HG cs2 false out HL2 Ho Hs ltac:(discriminate)).
    do 2 f_equal. cbn [sz mk_img]. apply mk_img_ext. intros x y z Hi. apply cann_ext; [|exact Hi]. intros x' y' z' Hi'. apply pxv_mk; [apply Ws|exact Hi'].
Qed.
End Filt.

(** ** Suprema *)
Section Sup.
Variables (op : Z -> Z -> Z) (Rel : Z -> Z -> Prop) (bv : Z) (s : dims).
Hypothesis op_lub : forall a b c, Rel (op a b) c <-> Rel a c /\ Rel b c.
Hypothesis Rel_eq : forall a b, (forall c, Rel a c <-> Rel b c) -> a = b.
Variable se : strelt.
Hypothesis HN : se_points se <> [].

Lemma can1_sup F G x y z : inside s x y z ->
  can1 op bv s se (fun x y z => op (F x y z) (G x y z)) x y z = op (can1 op bv s se F x y z) (can1 op bv s se G x y z).
Proof.
  intros Hi. apply Rel_eq. intros c. rewrite op_lub. rewrite (can1_pass op Rel bv s op_lub se HN F x y z Hi c), (can1_pass op Rel bv s op_lub se HN G x y z Hi c).
  rewrite (can1_pass op Rel bv s op_lub se HN _ x y z Hi c). unfold gval. split.
  - intros H. split; intros p Hp; specialize (H p Hp); apply (bo_op op Rel bv s op_lub) in H; tauto.
  - intros (H1 & H2) p Hp. apply (bo_op op Rel bv s op_lub). auto.
Qed.

Lemma cann_sup n F G x y z : inside s x y z ->
  Nat.iter n (can1 op bv s se) (fun x y z => op (F x y z) (G x y z)) x y z = op (Nat.iter n (can1 op bv s se) F x y z) (Nat.iter n (can1 op bv s se) G x y z).
Proof.
  revert x y z. induction n as [|n IH]; intros x y z Hi; [reflexivity|].
  change (can1 op bv s se (Nat.iter n (can1 op bv s se) (fun x y z => op (F x y z) (G x y z))) x y z =
          op (can1 op bv s se (Nat.iter n (can1 op bv s se) F) x y z) (can1 op bv s se (Nat.iter n (can1 op bv s se) G) x y z)).
  rewrite <- can1_sup by exact Hi. apply can1_ext. exact IH.
Qed.
End Sup.

(** ** Duality *)
Lemma pass1_neg t s se se' F R : (forall p, In p (se_points se') <-> In p (se_points se)) -> se_odd se' = se_odd se ->
  pass1 Z.le (tmin t) s se F R ->
  pass1 Z.ge (tmax t) s se' (fun x y z => tmin t + tmax t - F x y z) (fun x y z => tmin t + tmax t - R x y z).
Proof.
  intros Hp Ho H x y z Hi c. assert (tmin t + tmax t - R x y z >= c <-> R x y z <= tmin t + tmax t - c) as -> by lia.
  rewrite (H x y z Hi _). rewrite Ho. split; intros K p Hq; apply Hp in Hq; specialize (K p Hq); unfold gval, bo in *; destruct (insideb s _ _ _); lia.
Qed.

Lemma passn_neg t s n se se' F R : (forall p, In p (se_points se') <-> In p (se_points se)) -> se_odd se' = se_odd se ->
  passn Z.le (tmin t) s n se F R ->
  passn Z.ge (tmax t) s n se' (fun x y z => tmin t + tmax t - F x y z) (fun x y z => tmin t + tmax t - R x y z).
Proof.
  intros Hp Ho. revert R. induction n as [|n IH]; intros R H.
  - intros x y z Hi. rewrite H by exact Hi. reflexivity.
  - destruct H as (M & H1 & H2). eexists. split; [apply IH; exact H1|]. apply (pass1_neg t s se); assumption.
Qed.

(** ** Windows *)
Lemma toward x x' : exists d, Z.abs d <= 1 /\ (x' <> x -> Z.abs d = 1) /\ (x' = x -> d = 0) /\ (x' <> x -> Z.abs (x' - (x + d)) = Z.abs (x' - x) - 1) /\
  (x <= x + d <= x' \/ x' <= x + d <= x).
Proof. destruct (Z.lt_trichotomy x x') as [H|[H|H]]; [exists 1|exists 0|exists (-1)]; lia. Qed.

Lemma toward3 k n x y z x' y' z' : Z.abs (x' - x) + Z.abs (y' - y) + Z.abs (z' - z) <= n + 1 -> 0 <= n -> (k = 0 -> z' = z) ->
  exists dx dy dz, Z.abs dx + Z.abs dy + Z.abs dz <= 1 /\ (k = 0 -> dz = 0) /\
        Z.abs (x' - (x + dx)) + Z.abs (y' - (y + dy)) + Z.abs (z' - (z + dz)) <= n /\
        (x <= x + dx <= x' \/ x' <= x + dx <= x) /\ (y <= y + dy <= y' \/ y' <= y + dy <= y) /\ (z <= z + dz <= z' \/ z' <= z + dz <= z).
Proof.
  intros H Hn Hk. destruct (toward x x') as (dx & X1 & X2 & X3 & X4 & X5), (toward y y') as (dy & Y1 & Y2 & Y3 & Y4 & Y5), (toward z z') as (dz & Z1 & Z2 & Z3 & Z4 & Z5).
  destruct (Z.eq_dec x' x) as [Ex|Nx]; [destruct (Z.eq_dec y' y) as [Ey|Ny]; [destruct (Z.eq_dec z' z) as [Ez|Nz]|]|].
  - clear - Ex Ey Ez Hn. exists 0, 0, 0. subst. rewrite !Z.add_0_r, !Z.sub_diag. cbn. repeat split; lia.
  - specialize (Z4 Nz). exists 0, 0, dz. rewrite !Z.add_0_r, Z4, Ex, Ey, !Z.sub_diag. rewrite Ex, Ey, !Z.sub_diag in H.
    repeat split; try (clear - Z1; lia); try (clear - H; lia); try exact Z5; try (clear; lia). intros Ek. apply Z3. apply Hk. exact Ek.
  - specialize (Y4 Ny). exists 0, dy, 0. rewrite !Z.add_0_r, Y4, Ex, !Z.sub_diag. rewrite Ex, !Z.sub_diag in H.
    repeat split; try (clear - Y1; lia); try (clear - H; lia); try exact Y5; clear; lia.
  - specialize (X4 Nx). exists dx, 0, 0. rewrite !Z.add_0_r, X4.
    repeat split; try (clear - X1; lia); try (clear - H; lia); try exact X5; clear; lia.
Qed.

Lemma outside_between s x y z x1 y1 z1 x' y' z' : inside s x y z -> ~ inside s x1 y1 z1 ->
  (x <= x1 <= x' \/ x' <= x1 <= x) -> (y <= y1 <= y' \/ y' <= y1 <= y) -> (z <= z1 <= z' \/ z' <= z1 <= z) -> ~ inside s x' y' z'.
Proof.
  intros (A & B & C) H Hx Hy Hz (A' & B' & C'). apply H. split; [lia|]. split; lia.
Qed.

Section Windows.
Variables (Rel : Z -> Z -> Prop) (bv : Z) (s : dims) (se : strelt).
Hypothesis Hodd : se_odd se = false.

Lemma gval_even F p x y z : gval bv s (se_odd se) F p x y z = bo s bv F (x - px_ p) (y - py_ p) (z - pz_ p).
Proof. rewrite Hodd. destruct p as [[a b] c]. apply gval_flat. Qed.

Lemma box_window a b c (Hp : forall p, In p (se_points se) <-> Z.abs (px_ p) <= a /\ Z.abs (py_ p) <= b /\ Z.abs (pz_ p) <= c) :
  0 <= a -> 0 <= b -> 0 <= c -> forall n F R, passn Rel bv s n se F R -> forall x y z q, inside s x y z ->
  (Rel (R x y z) q <-> forall x' y' z', Z.abs (x' - x) <= Z.of_nat n * a -> Z.abs (y' - y) <= Z.of_nat n * b -> Z.abs (z' - z) <= Z.of_nat n * c ->
     Rel (bo s bv F x' y' z') q).
Proof.
  intros Ha Hb Hc n. induction n as [|n IH]; intros F R H x y z q Hi.
  - cbn in H. rewrite H by exact Hi. split.
    + intros K x' y' z' H1 H2 H3. replace x' with x by lia. replace y' with y by lia. replace z' with z by lia. rewrite bo_in by exact Hi. exact K.
    + intros K. rewrite <- (bo_in s bv F x y z) by exact Hi. apply K; lia.
  - destruct H as (M & HM & HR). rewrite (HR x y z Hi q). rewrite Nat2Z.inj_succ, !Z.mul_succ_l.
    assert (0 <= Z.of_nat n * a) as Na by (apply Z.mul_nonneg_nonneg; lia). assert (0 <= Z.of_nat n * b) as Nb by (apply Z.mul_nonneg_nonneg; lia).
    assert (0 <= Z.of_nat n * c) as Nc by (apply Z.mul_nonneg_nonneg; lia).
    revert Na Nb Nc. generalize (IH F M HM). clear IH. generalize (Z.of_nat n * a) (Z.of_nat n * b) (Z.of_nat n * c). intros A B C IH Na Nb Nc.
    destruct Hi as (Ix & Iy & Iz). split.
    + intros K x' y' z' H1 H2 H3.
      set (dx := Z.max (- a) (Z.min a (x' - x))). set (dy := Z.max (- b) (Z.min b (y' - y))). set (dz := Z.max (- c) (Z.min c (z' - z))).
      specialize (K (- dx, - dy, - dz)). rewrite Hp, gval_even in K. unfold px_, py_, pz_ in K. cbn [fst snd] in K.
      replace (x - - dx) with (x + dx) in K by lia. replace (y - - dy) with (y + dy) in K by lia. replace (z - - dz) with (z + dz) in K by lia.
      assert (Rel (bo s bv M (x + dx) (y + dy) (z + dz)) q) as K' by (apply K; lia). clear K.
      unfold bo at 1 in K'. destruct (insideb s (x + dx) (y + dy) (z + dz)) eqn:E.
      * apply insideb_spec in E. apply (IH _ _ _ q E); [exact K'|lia..].
      * rewrite bo_out; [exact K'|]. unfold insideb in E. unfold inside. lia.
    + intros K p Hq. apply Hp in Hq as (P1 & P2 & P3). rewrite gval_even. unfold bo. destruct (insideb s _ _ _) eqn:E.
      * apply insideb_spec in E. apply (IH _ _ _ q E). intros x' y' z' H1 H2 H3. apply K; lia.
      * specialize (K (x - px_ p) (y - py_ p) (z - pz_ p)). unfold bo in K. rewrite E in K. apply K; lia.
Qed.

Lemma ball_window k (Hk : k = 0 \/ k = 1) (Hp : forall p, In p (se_points se) <-> Z.abs (px_ p) + Z.abs (py_ p) + Z.abs (pz_ p) <= 1 /\ (k = 0 -> pz_ p = 0)) :
  forall n F R, passn Rel bv s n se F R -> forall x y z q, inside s x y z ->
  (Rel (R x y z) q <-> forall x' y' z', Z.abs (x' - x) + Z.abs (y' - y) + Z.abs (z' - z) <= Z.of_nat n -> (k = 0 -> z' = z) -> Rel (bo s bv F x' y' z') q).
Proof.
  induction n as [|n IH]; intros F R H x y z q Hi.
  - cbn in H. rewrite H by exact Hi. split.
    + intros K x' y' z' H1 H2. replace x' with x by lia. replace y' with y by lia. replace z' with z by lia. rewrite bo_in by exact Hi. exact K.
    + intros K. rewrite <- (bo_in s bv F x y z) by exact Hi. apply K; lia.
  - destruct H as (M & HM & HR). rewrite (HR x y z Hi q). specialize (IH F M HM).
    pose proof Hi as (Ix & Iy & Iz). split.
    + intros K x' y' z' H1 H2.
      rewrite Nat2Z.inj_succ in H1.
      destruct (toward3 k (Z.of_nat n) x y z x' y' z' H1 (Nat2Z.is_nonneg n) H2) as (dx & dy & dz & D1 & D2 & D3 & D4 & D5 & D6).
      specialize (K (- dx, - dy, - dz)). rewrite Hp, gval_even in K. unfold px_, py_, pz_ in K. cbn [fst snd] in K.
      replace (x - - dx) with (x + dx) in K by lia. replace (y - - dy) with (y + dy) in K by lia. replace (z - - dz) with (z + dz) in K by lia.
      assert (Rel (bo s bv M (x + dx) (y + dy) (z + dz)) q) as K'.
      { apply K. split; [rewrite !Z.abs_opp; exact D1|]. intros Ek. rewrite (D2 Ek). reflexivity. }
      clear K.
      unfold bo at 1 in K'. destruct (insideb s (x + dx) (y + dy) (z + dz)) eqn:E.
      * apply insideb_spec in E. apply (IH _ _ _ q E); [exact K'|exact D3|]. intros Ek. rewrite (D2 Ek), (H2 Ek). ring.
      * rewrite bo_out; [exact K'|]. apply (outside_between s x y z (x + dx) (y + dy) (z + dz)); auto. rewrite <- insideb_spec, E. discriminate.
    + intros K p Hq. apply Hp in Hq as (P1 & P2). rewrite gval_even. unfold bo. destruct (insideb s _ _ _) eqn:E.
      * apply insideb_spec in E. apply (IH _ _ _ q E). intros x' y' z' H1 H2. apply K; [clear - H1 P1; lia|]. intros Ek. rewrite (H2 Ek), (P2 Ek). ring.
      * specialize (K (x - px_ p) (y - py_ p) (z - pz_ p)). unfold bo in K. rewrite E in K. apply K; [clear - P1; lia|]. intros Ek. rewrite (P2 Ek). ring.
Qed.
End Windows.
