From Verif Require Export Proofs.MorphFacts.

Lemma point_eqb_eq p q : point_eqb p q = true <-> p = q.
Proof.
  destruct p as [[a b] c], q as [[a' b'] c']. unfold point_eqb, px_, py_, pz_. cbn. split; [|intros [= <- <- <-]; rewrite !Z.eqb_refl; reflexivity].
  intros H. f_equal; [f_equal|]; lia.
Qed.

Lemma existsb_point p pts : existsb (point_eqb p) pts = true <-> In p pts.
Proof.
  rewrite existsb_exists. split; [intros (q & Hq & E); apply point_eqb_eq in E; subst; exact Hq|]. intros H. exists p. split; [exact H|]. apply point_eqb_eq. reflexivity.
Qed.

Lemma add_point_In pts p q : In q (add_point pts p) <-> In q pts \/ q = p.
Proof.
  unfold add_point. destruct (existsb (point_eqb p) pts) eqn:E.
  - apply existsb_point in E. split; [auto|]. intros [H|H]; subst; assumption.
  - rewrite in_app_iff. cbn. split; intros [H|H]; auto. destruct H as [H|[]]; auto.
Qed.

Lemma add_point_NoDup pts p : NoDup pts -> NoDup (add_point pts p).
Proof.
  intros H. unfold add_point. destruct (existsb (point_eqb p) pts) eqn:E; [exact H|].
  apply NoDup_app'; [exact H|constructor; [intros []|constructor]|]. intros a Ha [<-|[]]. apply existsb_point in Ha. congruence.
Qed.

Lemma fold_add_In {A} (f : A -> point) l acc q :
  In q (fold_left (fun acc p => add_point acc (f p)) l acc) <-> In q acc \/ exists p, In p l /\ q = f p.
Proof.
  revert acc. induction l as [|a l IH]; intros acc; cbn [fold_left].
  - split; [auto|]. intros [H|(p & [] & _)]. exact H.
  - rewrite IH, add_point_In. split.
    + intros [[H|H]|(p & Hp & H)]; [auto|right; exists a; cbn; auto|right; exists p; cbn; auto].
    + intros [H|(p & [<-|Hp] & H)]; [auto|auto|right; exists p; auto].
Qed.

Lemma fold_add_NoDup {A} (f : A -> point) l acc : NoDup acc -> NoDup (fold_left (fun acc p => add_point acc (f p)) l acc).
Proof. revert acc. induction l as [|a l IH]; intros acc H; cbn [fold_left]; [exact H|]. apply IH. apply add_point_NoDup. exact H. Qed.

(** Adding distinct points that are not there yet appends them in order. *)
Lemma fold_add_map {A} (f : A -> point) l acc : NoDup (acc ++ map f l) -> fold_left (fun acc p => add_point acc (f p)) l acc = acc ++ map f l.
Proof.
  revert acc. induction l as [|a l IH]; intros acc H; cbn [fold_left map] in *; [symmetry; apply app_nil_r|].
  assert (add_point acc (f a) = acc ++ [f a]) as E.
  { unfold add_point. destruct (existsb (point_eqb (f a)) acc) eqn:E; [|reflexivity]. apply existsb_point in E.
    apply NoDup_remove_2 in H. exfalso. apply H. apply in_app_iff. auto. }
  rewrite E, IH; rewrite <- app_assoc; [reflexivity|]. exact H.
Qed.

(** The reflection of a point. *)
Definition refl_pt (odd : bool) (p : point) : point := (- px_ p - bit (odd && oddb (py_ p)), - py_ p, - pz_ p).

Lemma refl_invol odd p : refl_pt odd (refl_pt odd p) = p.
Proof.
  destruct p as [[a b] c]. unfold refl_pt, px_, py_, pz_. cbn [fst snd]. rewrite !oddb_odd, Z.odd_opp. f_equal; [f_equal|]; lia.
Qed.

Lemma transpose_In se q : In q (se_points (transpose se)) <-> In (refl_pt (se_odd se) q) (se_points se).
Proof.
  cbn [transpose se_points]. rewrite (fold_add_In (refl_pt (se_odd se))). split.
  - intros [[]|(p & Hp & ->)]. rewrite refl_invol. exact Hp.
  - intros H. right. exists (refl_pt (se_odd se) q). split; [exact H|]. symmetry. apply refl_invol.
Qed.

Lemma transpose_NoDup se : NoDup (se_points (transpose se)).
Proof. apply (fold_add_NoDup (refl_pt (se_odd se))). constructor. Qed.

Lemma transpose_list se : NoDup (se_points se) -> se_points (transpose se) = map (refl_pt (se_odd se)) (se_points se).
Proof.
  intros H. change (fold_left (fun acc p => add_point acc (refl_pt (se_odd se) p)) (se_points se) [] = map (refl_pt (se_odd se)) (se_points se)).
  rewrite (fold_add_map (refl_pt (se_odd se)) (se_points se) []); [reflexivity|]. cbn.
  apply FinFun.Injective_map_NoDup; [|exact H]. intros p q E. rewrite <- (refl_invol (se_odd se) p), E. apply refl_invol.
Qed.

Lemma transpose_invol se : NoDup (se_points se) -> transpose (transpose se) = se.
Proof.
  intros H. assert (se_points (transpose (transpose se)) = se_points se) as E.
  { rewrite transpose_list by apply transpose_NoDup. rewrite transpose_list by exact H. rewrite map_map. cbn [transpose se_odd].
    rewrite <- (map_id (se_points se)) at 2. apply map_ext. intros p. apply refl_invol. }
  destruct se as [o t n pts]. unfold transpose in *. cbn [se_odd se_type se_size se_points] in *. f_equal. exact E.
Qed.

(** Reading through the reflected element is the converse relation. *)
Lemma sees_transpose se x y z x' y' z' : (se_odd se = true -> Z.even z = true /\ forall p, In p (se_points se) -> pz_ p = 0) ->
  (sees (transpose se) x y z x' y' z' <-> sees se x' y' z' x y z).
Proof.
  intros HP. assert (forall p, (se_odd se = true -> Z.even z = true /\ pz_ p = 0) ->
    (x' = src_x (se_odd se) x y z (refl_pt (se_odd se) p) /\ y' = y - py_ (refl_pt (se_odd se) p) /\ z' = z - pz_ (refl_pt (se_odd se) p) <->
     x = src_x (se_odd se) x' y' z' p /\ y = y' - py_ p /\ z = z' - pz_ p)) as K.
  { intros [[a b] c] H. unfold src_x, refl_pt, px_, py_, pz_ in *. cbn [fst snd] in *. destruct (se_odd se).
    - destruct (H eq_refl) as (E & ->). cbn [andb]. rewrite oddb_odd. rewrite E. change (- 0) with 0.
      replace (y - - b) with (y + b) by lia. rewrite Z.sub_0_r, !Z.odd_add. split.
      + intros (-> & -> & ->). rewrite Z.sub_0_r, E. replace (y + b - b) with y by lia.
        rewrite Z.even_add, <- !Z.negb_even. split; [|lia]. destruct (Z.even y), (Z.even b); cbn; lia.
      + intros (Hx & -> & ->). rewrite !Z.sub_0_r in *. rewrite E in Hx. rewrite !Z.odd_sub in *. rewrite Z.even_sub. rewrite <- !Z.negb_even in *.
        split; [|lia]. destruct (Z.even y'), (Z.even b); cbn in *; lia.
    - cbn [andb]. cbn [bit]. lia. }
  unfold sees. cbn [transpose se_odd]. split.
  - intros (q & Hq & H). apply transpose_In in Hq. exists (refl_pt (se_odd se) q). split; [exact Hq|]. apply K.
    + intros E. split; apply (HP E). exact Hq.
    + rewrite refl_invol. exact H.
  - intros (p & Hp & H). exists (refl_pt (se_odd se) p). split; [apply transpose_In; rewrite refl_invol; exact Hp|]. apply K.
    + intros E. split; apply (HP E). exact Hp.
    + exact H.
Qed.

Lemma transpose_typed se : typed_se se -> typed_se (transpose se).
Proof.
  assert (forall l, (forall p, In p l -> In (refl_pt (se_odd se) p) l) -> (forall p, In p (se_points se) <-> In p l) ->
    forall p, In p (se_points (transpose se)) <-> In p l) as K.
  { intros l H1 H2 p. rewrite transpose_In, H2. split; [|apply H1]. intros H. rewrite <- (refl_invol (se_odd se) p). apply H1. exact H. }
  assert (se_points se <> [] -> se_points (transpose se) <> []) as KN.
  { intros HN E. destruct (se_points se) as [|p l] eqn:E'; [congruence|].
    assert (In (refl_pt (se_odd se) p) (se_points (transpose se))) as Hp by (rewrite transpose_In, refl_invol, E'; cbn; auto).
    rewrite E in Hp. destruct Hp. }
  unfold typed_se. cbn [transpose se_type se_odd].
  assert (forall o l, forallb (fun p => existsb (point_eqb (refl_pt o p)) l) l = true -> forall p, In p l -> In (refl_pt o p) l) as KB.
  { intros o l H p Hp. rewrite forallb_forall in H. apply existsb_point. apply H. exact Hp. }
  destruct (se_type se).
  1, 3, 5, 10: exact KN.
  7: exact (fun H => H).
  all: intros (Ho & Hp); (split; [exact Ho|]); apply K; [rewrite Ho; apply KB; vm_compute; reflexivity|exact Hp].
Qed.

Lemma noCenter_In se q : In q (se_points (noCenter se)) <-> In q (se_points se) /\ q <> (0, 0, 0).
Proof.
  cbn [noCenter se_points]. assert (forall l acc, In q (fold_left (fun acc p => if negb (px_ p =? 0) || negb (py_ p =? 0) || negb (pz_ p =? 0)
                              then add_point acc p else acc) l acc) <-> In q acc \/ (In q l /\ q <> (0, 0, 0))) as H.
  { induction l as [|p l IH]; intros acc; cbn [fold_left]; [cbn; tauto|]. rewrite IH.
    destruct (negb (px_ p =? 0) || negb (py_ p =? 0) || negb (pz_ p =? 0)) eqn:B.
    - assert (p <> (0, 0, 0)) as N by (intros ->; cbn in B; discriminate). rewrite add_point_In. cbn [In]. split; [|intuition congruence].
      intros [[H|H]|H]; [auto| |tauto]. subst. auto.
    - assert (p = (0, 0, 0)) as -> by (destruct p as [[a b] c]; unfold px_, py_, pz_ in B; cbn in B; f_equal; [f_equal|]; lia). cbn [In]. intuition congruence. }
  rewrite H. cbn. tauto.
Qed.
Lemma noCenter_NoDup se : NoDup (se_points (noCenter se)).
Proof.
  cbn [noCenter se_points]. assert (forall l acc, NoDup acc -> NoDup (fold_left (fun acc p => if negb (px_ p =? 0) || negb (py_ p =? 0) || negb (pz_ p =? 0)
                              then add_point acc p else acc) l acc)) as H.
  { induction l as [|p l IH]; intros acc Ha; cbn [fold_left]; [exact Ha|]. apply IH. destruct (_ || _); [apply add_point_NoDup|]; exact Ha. }
  apply H. constructor.
Qed.

(** Homothety. *)
Definition hex_add (odd : bool) (p2 p : point) : point :=
  (px_ p2 + px_ p + (if odd then bit (oddb (pz_ p2 + 1) && oddb (py_ p2) && oddb (py_ p)) else 0), py_ p2 + py_ p, pz_ p2 + pz_ p).

Lemma round_In odd points cur q :
  In q (homothety_round odd points cur) <-> In q cur \/ exists p p2, In p cur /\ In p2 points /\ q = hex_add odd p2 p.
Proof.
  unfold homothety_round. assert (forall l acc, In q (fold_left (fun acc p => fold_left (fun acc p2 =>
      let oddLine := if odd then bit (oddb (pz_ p2 + 1) && oddb (py_ p2) && oddb (py_ p)) else 0 in
      add_point acc (px_ p2 + px_ p + oddLine, py_ p2 + py_ p, pz_ p2 + pz_ p)) points acc) l acc) <->
      In q acc \/ exists p p2, In p l /\ In p2 points /\ q = hex_add odd p2 p) as H; [|apply H].
  induction l as [|a l IH]; intros acc; cbn [fold_left].
  - split; [auto|]. intros [H|(p & p2 & [] & _)]. exact H.
  - rewrite IH. cbv zeta. rewrite (fold_add_In (fun p2 => hex_add odd p2 a)). split.
    + intros [[H|(p2 & Hp & H)]|(p & p2 & Hp & Hp2 & H)]; [auto|right; exists a, p2; cbn; auto|right; exists p, p2; cbn; auto].
    + intros [H|(p & p2 & [<-|Hp] & Hp2 & H)]; [auto|left; right; exists p2; auto|right; exists p, p2; auto].
Qed.

Lemma round_NoDup odd points cur : NoDup cur -> NoDup (homothety_round odd points cur).
Proof.
  unfold homothety_round. intros Hn. generalize Hn. generalize cur at 1 3. clear Hn. intros acc Ha. revert acc Ha.
  induction cur as [|a l IH]; intros acc Ha; cbn [fold_left]; [exact Ha|]. apply IH. cbv zeta. apply (fold_add_NoDup (fun p2 => hex_add odd p2 a)). exact Ha.
Qed.

(** [q] is a sum of [k + 1] points. *)
Fixpoint sums (odd : bool) (points : list point) (k : nat) (q : point) : Prop :=
  match k with
  | O => In q points
  | S k' => exists p p2, sums odd points k' p /\ In p2 points /\ q = hex_add odd p2 p
  end.

Lemma loop_In odd points n cur (m : nat) : (forall q, In q cur <-> exists k, (k <= m)%nat /\ sums odd points k q) ->
  forall q, In q (homothety_loop n odd points cur) <-> exists k, (k <= m + n)%nat /\ sums odd points k q.
Proof.
  revert cur m. induction n as [|n IH]; intros cur m H q; cbn [homothety_loop].
  - rewrite Nat.add_0_r. apply H.
  - rewrite (IH _ (S m)); [replace (S m + n)%nat with (m + S n)%nat by lia; reflexivity|]. clear q. intros q. rewrite round_In, H. split.
    + intros [(k & L & S)|(p & p2 & Hp & Hp2 & ->)]; [exists k; split; [lia|exact S]|]. apply H in Hp as (k & L & S). exists (Datatypes.S k). split; [lia|]. cbn. eauto.
    + intros (k & L & S). destruct (Nat.eq_dec k (Datatypes.S m)) as [->|N]; [|left; exists k; split; [lia|exact S]].
      right. destruct S as (p & p2 & S & Hp2 & ->). exists p, p2. split; [apply H; exists m; split; [lia|exact S]|auto].
Qed.

Lemma homothety_In se n : 1 <= n <= 2 ^ 32 -> forall q,
  In q (se_points (homothety se n)) <-> exists k, (k < Z.to_nat n)%nat /\ sums (se_odd se) (se_points se) k q.
Proof.
  intros Hn q. cbn [homothety se_points]. rewrite Z.mod_small by lia. rewrite (loop_In _ _ _ _ O).
  - split; intros (k & L & S); exists k; (split; [lia|exact S]).
  - intros q'. split; [intros H; exists O; auto|]. intros (k & L & S). replace k with O in S by lia. exact S.
Qed.

Lemma homothety_NoDup se n : NoDup (se_points se) -> NoDup (se_points (homothety se n)).
Proof.
  intros H. cbn [homothety se_points]. generalize (Z.to_nat ((n - 1) mod 2 ^ 32)). intros m. generalize H. generalize (se_points se) at 1 3. intros cur. clear H. revert cur.
  induction m as [|m IH]; intros cur H; cbn [homothety_loop]; [exact H|]. apply IH. apply round_NoDup. exact H.
Qed.

(** Reading through a sum is reading twice. *)
Lemma hex_add_sees (odd : bool) p2 p x y z : (odd = true -> Z.even z = true /\ pz_ p = 0 /\ pz_ p2 = 0) ->
  src_x odd x y z (hex_add odd p2 p) = src_x odd (src_x odd x y z p) (y - py_ p) (z - pz_ p) p2.
Proof.
  destruct p2 as [[a2 b2] c2], p as [[a b] c]. unfold src_x, hex_add, px_, py_, pz_. cbn [fst snd]. intros H. destruct odd; [|cbn [andb]; lia].
  destruct (H eq_refl) as (E & -> & ->). rewrite Z.sub_0_r, E. change (oddb (0 + 1)) with true. rewrite !oddb_odd. cbn [andb].
  replace (y - (b2 + b)) with (y - b - b2) by lia. rewrite !Z.odd_sub, Z.even_sub, <- !Z.negb_even.
  destruct (Z.even y), (Z.even b), (Z.even b2); cbn; lia.
Qed.

Lemma sums_z odd points k q : (forall p, In p points -> pz_ p = 0) -> sums odd points k q -> pz_ q = 0.
Proof.
  intros H. revert q. induction k as [|k IH]; intros q Hq; [apply H; exact Hq|]. destruct Hq as (p & p2 & Hp & Hp2 & ->). cbn. rewrite (IH p Hp), (H p2 Hp2). reflexivity.
Qed.

Lemma sums_sees se k x y z x' y' z' : (se_odd se = true -> Z.even z = true /\ forall p, In p (se_points se) -> pz_ p = 0) ->
  ((exists q, sums (se_odd se) (se_points se) k q /\ x' = src_x (se_odd se) x y z q /\ y' = y - py_ q /\ z' = z - pz_ q) <->
   steps se (S k) x y z x' y' z').
Proof.
  intros HP. revert x' y' z'. induction k as [|k IH]; intros x' y' z'.
  - cbn [steps sums]. split.
    + intros (q & Hq & H). exists x, y, z. split; [auto|]. exists q. auto.
    + intros (x1 & y1 & z1 & (-> & -> & ->) & q & Hq & H). exists q. auto.
  - cbn [sums]. remember (S k) as k1. cbn [steps]. subst k1. split.
    + intros (q & (p & p2 & Hp & Hp2 & ->) & -> & -> & ->). eexists _, _, _. split.
      * apply IH. exists p. split; [exact Hp|]. repeat split; reflexivity.
      * exists p2. split; [exact Hp2|]. split.
        -- apply hex_add_sees. intros E. destruct (HP E) as (A & B). split; [exact A|]. split; [apply (sums_z _ _ _ _ B Hp)|apply B; exact Hp2].
        -- unfold hex_add, py_, pz_. cbn. lia.
    + intros (x1 & y1 & z1 & Hs & p2 & Hp2 & -> & -> & ->). apply IH in Hs as (p & Hp & -> & -> & ->).
      exists (hex_add (se_odd se) p2 p). split; [exists p, p2; auto|]. split.
      * symmetry. apply hex_add_sees. intros E. destruct (HP E) as (A & B). split; [exact A|]. split; [apply (sums_z _ _ _ _ B Hp)|apply B; exact Hp2].
      * unfold hex_add, py_, pz_. cbn. lia.
Qed.

Lemma homothety_sees se n x y z x' y' z' : 1 <= n <= 2 ^ 32 -> (se_odd se = true -> Z.even z = true /\ forall p, In p (se_points se) -> pz_ p = 0) ->
  (sees (homothety se n) x y z x' y' z' <-> exists k, (1 <= k <= Z.to_nat n)%nat /\ steps se k x y z x' y' z').
Proof.
  intros Hn HP. unfold sees. split.
  - intros (q & Hq & H). apply homothety_In in Hq as (k & L & S); [|exact Hn]. exists (Datatypes.S k). split; [lia|]. apply sums_sees; [exact HP|]. exists q. auto.
  - intros ([|k] & L & S); [lia|]. apply sums_sees in S as (q & Hq & H); [|exact HP]. exists q. split; [|exact H]. apply homothety_In; [exact Hn|]. exists k. split; [lia|exact Hq].
Qed.

Lemma steps_pad se k m x y z x' y' z' : In (0, 0, 0) (se_points se) -> steps se k x y z x' y' z' -> steps se (m + k) x y z x' y' z'.
Proof.
  intros HO. induction m as [|m IH]; intros H; [exact H|]. exists x', y', z'. split; [apply IH; exact H|]. exists (0, 0, 0). split; [exact HO|].
  unfold src_x, px_, py_, pz_. cbn [fst snd]. rewrite !Z.sub_0_r, <- Z.negb_even.
  destruct (se_odd se), (Z.even y'), (Z.even z'); cbn; lia.
Qed.

Lemma homothety_origin se n x y z x' y' z' : 1 <= n <= 2 ^ 32 -> (se_odd se = true -> Z.even z = true /\ forall p, In p (se_points se) -> pz_ p = 0) ->
  In (0, 0, 0) (se_points se) -> (sees (homothety se n) x y z x' y' z' <-> steps se (Z.to_nat n) x y z x' y' z').
Proof.
  intros Hn HP HO. rewrite homothety_sees by assumption. split.
  - intros (k & L & S). replace (Z.to_nat n) with (Z.to_nat n - k + k)%nat by lia. apply steps_pad; assumption.
  - intros S. exists (Z.to_nat n). split; [lia|exact S].
Qed.
