(** Proofs about Otsu's thresholds. *)
From Coq Require Import Lqa.
From Verif Require Export Proofs.ContrastProofs.
From Coq Require Import QArith.
Local Open Scope Z_scope.

(** ** The histogram, with its keys *)
Lemma histogram_map_exact t im mask lo hi : wf_img im -> typed_img t im -> spans im lo hi ->
  Z.of_nat (length (pixs im)) < 2 ^ 32 -> (forall m, mask = Some m -> length (pixs m) = length (pixs im)) ->
  exists h, histogram_map t im mask false = Some h /\ msorted h /\ Z.of_nat (length h) = hi - lo + 1 /\
    (forall v, mfind v h = if (lo <=? v) && (v <=? hi) then Some (Z.of_nat (count_occ Z.eq_dec (counted im mask) v)) else None) /\
    (forall v, In v (counted im mask) -> lo <= v <= hi).
Proof.
  intros Hwf HT (I1 & I2 & HB) HC HM. assert (E : rangeVal t false im = Some (lo, hi)).
  { destruct (rangeVal_ok t false im Hwf HT) as (l & g & E & J1 & J2 & J3); [intros K; cbn in K; rewrite K in I1; exact I1|]. rewrite E. cbn in J1, J2, J3. pose proof (J3 _ I1). pose proof (J3 _ I2). pose proof (HB _ J1). pose proof (HB _ J2). do 2 f_equal; lia. }
  assert (HS : forall v, In v (counted im mask) -> lo <= v <= hi).
  { intros v Hv. apply HB. unfold counted in Hv. destruct mask as [m|]; [|exact Hv]. apply in_map_iff in Hv as ((a & b) & <- & Hv). apply filter_In in Hv as (Hv & _). apply in_combine_l in Hv. exact Hv. }
  unfold histogram_map. rewrite E. cbn [option_bind fst snd]. unfold typed_img in HT. rewrite Forall_forall in HT. pose proof (HT lo I1) as T1. pose proof (HT hi I2) as T2. unfold inty in T1, T2. pose proof (HB lo I1) as B1.
  replace (hi - lo + 1 <=? 0) with false by lia. rewrite wf_count by exact Hwf.
  destruct (hist_loop im mask lo (hi - lo + 1) HM ltac:(lia)) as (buf & Eb & L1 & L2 & L3).
  { intros v Hv. specialize (HB v Hv). lia. }
  rewrite Eb. cbn [option_bind]. set (cnt0 := fun v => Z.of_nat (count_occ Z.eq_dec (counted im mask) v)).
  match goal with |- exists h, Some ?x = _ /\ _ => set (h2 := x) end.
  assert (Eh2 : h2 = fold_left (fun h j => minsert j (cnt0 j) h) (zrange lo (hi - lo + 1)) []).
  { unfold h2, zrange. rewrite fold_left_map. apply fold_left_ext. intros h i Hi. apply zseq_In in Hi.
    rewrite wrap_id by (unfold inty; lia). replace (i + lo) with (lo + i) by lia. f_equal.
    specialize (L2 (lo + i)). replace (lo + i - lo) with i in L2 by lia. rewrite (znth_rd 0 _ _ _ (L2 ltac:(lia))).
    apply wrap_id. unfold inty, cnt0. cbn. split; [lia|].
    assert (count_occ Z.eq_dec (counted im mask) (lo + i)%Z <= length (pixs im))%nat; [|lia].
    rewrite counted_count by exact HM. etransitivity; [apply filter_length_le|]. rewrite zseq_length. lia. }
  clearbody h2. destruct (minsert_all cnt0 (zrange lo (hi - lo + 1)) [] msorted_nil) as [M1 M2]. rewrite <- Eh2 in M1, M2.
  assert (F2 : forall v, mfind v h2 = if (lo <=? v) && (v <=? hi) then Some (cnt0 v) else None).
  { intros v. rewrite M2. cbn [mfind]. destruct (in_dec Z.eq_dec v _) as [I|I]; rewrite zrange_In in I.
    - replace (_ && _) with true by lia. reflexivity.
    - replace (_ && _) with false by lia. reflexivity. }
  exists h2. split; [reflexivity|]. split; [exact M1|]. split; [|split; [exact F2|exact HS]].
  pose proof (msorted_NoDup _ M1) as ND. assert (EL : length h2 = length (mkeys h2)) by (unfold mkeys; rewrite map_length; reflexivity). rewrite EL.
  assert (NZ : NoDup (zrange lo (hi - lo + 1))) by (unfold zrange; apply FinFun.Injective_map_NoDup; [intros a b; lia|apply zseq_NoDup]).
  assert (LZ : length (zrange lo (hi - lo + 1)) = Z.to_nat (hi - lo + 1)) by (unfold zrange; rewrite map_length, zseq_length; reflexivity).
  assert (INC : forall v, In v (mkeys h2) <-> In v (zrange lo (hi - lo + 1))).
  { intros v. rewrite In_mkeys_mfind, F2, zrange_In. destruct ((lo <=? v) && (v <=? hi)) eqn:K; split; intros H; try lia; try congruence. }
  assert (length (mkeys h2) = length (zrange lo (hi - lo + 1))) by (apply Nat.le_antisymm; apply NoDup_incl_length; try assumption; intros v Hv; apply INC; exact Hv). lia.
Qed.

(** ** Sums over the histogram *)
Lemma Zsum_app l r : Zsum (l ++ r) = Zsum l + Zsum r.
Proof. induction l as [|a l IH]; cbn in *; [reflexivity|]. unfold Zsum in *. cbn. lia. Qed.
Lemma sum_pick (g : Z -> Z) v ks : NoDup ks -> Zsum (map (fun k => g k * (if Z.eq_dec v k then 1 else 0)) ks) = if in_dec Z.eq_dec v ks then g v else 0.
Proof.
  induction ks as [|a ks IH]; intros ND; [reflexivity|]. inversion ND; subst. cbn [map]. unfold Zsum in *. cbn [fold_right]. rewrite IH by assumption.
  destruct (Z.eq_dec v a) as [->|N]; destruct (in_dec Z.eq_dec _ ks) as [I|I]; destruct (in_dec Z.eq_dec _ (_ :: ks)) as [J|J]; try contradiction; try lia; exfalso; try (apply J; cbn; auto; fail). destruct J as [J|J]; [congruence|contradiction].
Qed.
Lemma sum_keys (g : Z -> Z) ks l : NoDup ks -> (forall v, In v l -> In v ks) -> Zsum (map (fun k => g k * Z.of_nat (count_occ Z.eq_dec l k)) ks) = Zsum (map g l).
Proof.
  intros ND. induction l as [|v l IH]; intros H.
  - cbn. clear. induction ks as [|a ks IH]; cbn in *; [reflexivity|]. unfold Zsum in *. lia.
  - cbn [map]. unfold Zsum at 2. cbn [fold_right]. fold (Zsum (map g l)). rewrite <- IH by (intros u Hu; apply H; right; exact Hu).
    pose proof (sum_pick g v ks ND) as P. destruct (in_dec Z.eq_dec v ks) as [_|C]; [|exfalso; apply C, H; left; reflexivity]. rewrite <- P. clear. induction ks as [|a ks IH]; [reflexivity|]. cbn [map]. unfold Zsum in *. cbn [fold_right]. rewrite IH. cbn [count_occ]. destruct (Z.eq_dec v a); [rewrite Nat2Z.inj_succ|]; lia.
Qed.

Section Sums.
  Variables (h : zmap Z) (l : list Z) (lo hi : Z).
  Hypothesis M : msorted h.
  Hypothesis F : forall v, mfind v h = if (lo <=? v) && (v <=? hi) then Some (Z.of_nat (count_occ Z.eq_dec l v)) else None.
  Hypothesis B : forall v, In v l -> lo <= v <= hi.

  Lemma entry k c : In (k, c) h -> c = Z.of_nat (count_occ Z.eq_dec l k).
  Proof. intros H. apply msorted_In in H; [|exact M]. rewrite F in H. destruct (_ && _); congruence. Qed.
  Lemma value_key v : In v l -> In v (mkeys h).
  Proof. intros H. apply In_mkeys_mfind. rewrite F. replace (_ && _) with true by (specialize (B v H); lia). discriminate. Qed.
  Lemma get_count v : mget 0 v h = Z.of_nat (count_occ Z.eq_dec l v).
  Proof.
    unfold mget. rewrite F. destruct (_ && _) eqn:K; [reflexivity|]. assert (~ In v l) as C by (intros C; specialize (B v C); lia). rewrite (count_occ_not_In Z.eq_dec) in C. rewrite C. reflexivity.
  Qed.
  Lemma sum_entries (g : Z -> Z) : Zsum (map (fun e : Z * Z => g (fst e) * snd e) h) = Zsum (map g l).
  Proof.
    rewrite <- (sum_keys g (mkeys h)) by (try apply msorted_NoDup; try exact M; exact value_key). unfold mkeys. rewrite map_map. f_equal. apply map_ext_in. intros (k & c) H. cbn. rewrite (entry k c H). reflexivity.
  Qed.
  Lemma total_ok : fold_left (fun a (e : Z * Z) => a + snd e) h 0 = Z.of_nat (length l).
  Proof.
    assert (G : forall r a, fold_left (fun a (e : Z * Z) => a + snd e) r a = a + Zsum (map (fun e : Z * Z => 1 * snd e) r)).
    { induction r as [|e r IH]; intros a; cbn [fold_left map]; [cbn; lia|]. rewrite IH. unfold Zsum. cbn [fold_right]. lia. }
    rewrite G, (sum_entries (fun _ => 1)). clear. induction l as [|a r IH]; [reflexivity|]. cbn [map length]. unfold Zsum in *. cbn [fold_right]. lia.
  Qed.
  Lemma moment_ok : (fold_left (fun a (e : Z * Z) => a + inject_Z (fst e) * inject_Z (snd e)) h 0 == inject_Z (Zsum l))%Q.
  Proof.
    assert (G : forall r a, (fold_left (fun a (e : Z * Z) => a + inject_Z (fst e) * inject_Z (snd e)) r a == a + inject_Z (Zsum (map (fun e : Z * Z => (fst e * snd e)%Z) r)))%Q).
    { induction r as [|e r IH]; intros a; cbn [fold_left map]; [cbn; ring|]. rewrite IH. unfold Zsum. cbn [fold_right]. rewrite inject_Z_plus, inject_Z_mult. ring. }
    rewrite G, (sum_entries (fun k => k)), map_id. ring.
  Qed.
End Sums.

Lemma minsert_length {A} k (v : A) m : msorted m -> Z.of_nat (length (minsert k v m)) = Z.of_nat (length m) + match mfind k m with Some _ => 0 | None => 1 end.
Proof.
  intros _. unfold minsert. destruct (mfind k m) eqn:E; [lia|]. enough (H : length (mput k v m) = S (length m)) by lia. revert E. induction m as [|(k', v') m IH]; cbn; intros E; [reflexivity|]. destruct (k =? k') eqn:K; [discriminate|]. destruct (k <? k'); cbn; [reflexivity|]. rewrite IH; auto.
Qed.

(** ** The parts of the list *)
Definition below (k : Z) (l : list Z) : list Z := filter (fun v => v <=? k) l.
Definition above (k : Z) (l : list Z) : list Z := filter (fun v => negb (v <=? k)) l.

Lemma parts_sum k l : Zsum (below k l) + Zsum (above k l) = Zsum l.
Proof. unfold below, above. induction l as [|a l IH]; [reflexivity|]. cbn [filter]. destruct (a <=? k); cbn [negb]; unfold Zsum in *; cbn [fold_right]; lia. Qed.
Lemma parts_length k l : Z.of_nat (length (below k l)) + Z.of_nat (length (above k l)) = Z.of_nat (length l).
Proof. unfold below, above. induction l as [|a l IH]; [reflexivity|]. cbn [filter]. destruct (a <=? k); cbn [negb length]; lia. Qed.
Lemma below_sum k l : Zsum (below (k + 1) l) = Zsum (below k l) + (k + 1) * Z.of_nat (count_occ Z.eq_dec l (k + 1)).
Proof.
  unfold below. induction l as [|a l IH]; [cbn; lia|]. cbn [filter count_occ]. unfold Zsum in *. destruct (Z.eq_dec a (k + 1)) as [->|N].
  - replace (k + 1 <=? k + 1) with true by lia. replace (k + 1 <=? k) with false by lia. cbn [fold_right]. lia.
  - destruct (a <=? k) eqn:K1, (a <=? k + 1) eqn:K2; cbn [fold_right]; lia.
Qed.
Lemma below_length k l : Z.of_nat (length (below (k + 1) l)) = Z.of_nat (length (below k l)) + Z.of_nat (count_occ Z.eq_dec l (k + 1)).
Proof.
  unfold below. induction l as [|a l IH]; [cbn; lia|]. cbn [filter count_occ]. destruct (Z.eq_dec a (k + 1)) as [->|N].
  - replace (k + 1 <=? k + 1) with true by lia. replace (k + 1 <=? k) with false by lia. cbn [length]. lia.
  - destruct (a <=? k) eqn:K1, (a <=? k + 1) eqn:K2; cbn [length]; lia.
Qed.
Lemma below_none k l : (forall v, In v l -> k < v) -> below k l = [].
Proof. intros H. apply filter_none. intros a Ha. specialize (H a Ha). lia. Qed.
Lemma above_none k l : (forall v, In v l -> v <= k) -> above k l = [].
Proof. intros H. apply filter_none. intros a Ha. specialize (H a Ha). lia. Qed.
Lemma filter_all {A} (p : A -> bool) l : (forall a, In a l -> p a = true) -> filter p l = l.
Proof. induction l as [|a l IH]; intros H; [reflexivity|]. cbn [filter]. rewrite (H a) by (left; reflexivity). f_equal. apply IH. intros b Hb. apply H. right. exact Hb. Qed.

Lemma spread_nil m : (spread_to m [] == 0)%Q.
Proof. unfold spread_to. cbn. ring. Qed.
Lemma spread_self l : (spread_to (avg l) l == 0)%Q.
Proof. unfold spread_to. ring. Qed.
Lemma spread_nonneg m l : (0 <= spread_to m l)%Q.
Proof.
  unfold spread_to. apply Qmult_le_0_compat; [change 0%Q with (inject_Z 0); rewrite <- Zle_Qle; lia|]. generalize (m - avg l)%Q. intros q. nra.
Qed.
Lemma between_nonneg l k : (0 <= separation l k)%Q.
Proof. unfold separation. pose proof (spread_nonneg (avg l) (filter (fun v => v <=? k) l)). pose proof (spread_nonneg (avg l) (filter (fun v => negb (v <=? k)) l)). lra. Qed.
Lemma between_low l k : (forall v, In v l -> k < v) -> (separation l k == 0)%Q.
Proof.
  intros H. unfold separation. change (filter (fun v => v <=? k) l) with (below k l). rewrite (below_none k l H). rewrite (filter_all (fun v => negb (v <=? k)) l) by (intros a Ha; specialize (H a Ha); lia). rewrite spread_nil, spread_self. ring.
Qed.
Lemma between_high l k : (forall v, In v l -> v <= k) -> (separation l k == 0)%Q.
Proof.
  intros H. unfold separation. change (filter (fun v => negb (v <=? k)) l) with (above k l). rewrite (above_none k l H). rewrite (filter_all (fun v => v <=? k) l) by (intros a Ha; specialize (H a Ha); lia). rewrite spread_nil, spread_self. ring.
Qed.

(** ** The loop with one threshold *)
Section Otsu.
  Variables (t : ity) (h0 : zmap Z) (l : list Z) (lo hi : Z).
  Hypothesis M0 : msorted h0.
  Hypothesis F0 : forall v, mfind v h0 = if (lo <=? v) && (v <=? hi) then Some (Z.of_nat (count_occ Z.eq_dec l v)) else None.
  Hypothesis L0 : Z.of_nat (length h0) = hi - lo + 1.
  Hypothesis B0 : forall v, In v l -> lo <= v <= hi.
  Hypothesis R0 : 0 <= lo <= hi /\ hi <= tmax t.
  Hypothesis NE : l <> [].

  Definition nz (l : list Z) : Z := Z.of_nat (length l).
  Let N := nz l.
  Let gm : Q := (fold_left (fun a (e : Z * Z) => a + inject_Z (fst e) * inject_Z (snd e)) h0 0 / inject_Z N)%Q.

  Definition good_map (k : Z) (h : zmap Z) : Prop :=
    msorted h /\ (forall v, mget 0 v h = Z.of_nat (count_occ Z.eq_dec l v)) /\ (forall v, mfind v h = None <-> ~ (lo <= v <= hi \/ 0 <= v <= k)) /\
    Z.of_nat (length h) = hi - lo + 1 + Z.min (k + 1) lo + Z.max 0 (k - hi).
  Definition good_state (k : Z) (s : otsu) : Prop :=
    exists m0 m1 h, s = Otsu [k] [m0; m1] [nz (below k l); nz (above k l)] h /\ good_map k h /\
      (m0 * inject_Z (nz (below k l)) == inject_Z (Zsum (below k l)))%Q /\ (m1 * inject_Z (nz (above k l)) == inject_Z (Zsum (above k l)))%Q.
  Definition fin : Z := if lo <? hi then hi - 1 else if lo =? 0 then 1 else 0.

  Lemma N_pos : 0 < N.
  Proof. unfold N, nz. destruct l; [congruence|cbn; lia]. Qed.
  Lemma gm_ok : (gm * inject_Z N == inject_Z (Zsum l))%Q.
  Proof. unfold gm. rewrite (moment_ok h0 l lo hi M0 F0 B0). field. pose proof N_pos as P. apply inj_pos in P. lra. Qed.
  Lemma gm_avg : (gm == avg l)%Q.
  Proof. unfold gm, avg. rewrite (moment_ok h0 l lo hi M0 F0 B0). reflexivity. Qed.

  Lemma good_touch k h : 0 <= k + 1 -> good_map k h -> good_map (k + 1) (touch (k + 1) h).
  Proof.
    intros Hk (A & B & C & D). unfold touch. split; [apply msorted_minsert; exact A|]. split; [|split].
    - intros v. specialize (B v). unfold mget in *. rewrite mfind_minsert by exact A. destruct (mfind v h) eqn:E; [exact B|]. destruct (v =? k + 1); exact B.
    - intros v. rewrite mfind_minsert by exact A. specialize (C v). destruct (mfind v h) eqn:E; [split; [discriminate|intros X; exfalso; assert (K : ~ (~ (lo <= v <= hi \/ 0 <= v <= k))) by (intros K; apply C in K; discriminate); lia]|].
      pose proof (proj1 C eq_refl) as C'. destruct (Z.eqb_spec v (k + 1)); split; intros X; try discriminate; try reflexivity; lia.
    - rewrite minsert_length by exact A. specialize (C (k + 1)). destruct (mfind (k + 1) h) eqn:E.
      + assert (K : ~ (~ (lo <= k + 1 <= hi \/ 0 <= k + 1 <= k))) by (intros K; apply C in K; discriminate). lia.
      + pose proof (proj1 C eq_refl). lia.
  Qed.

  Lemma last_ok k m0 x y : (m0 * inject_Z (nz (below k l)) == inject_Z (Zsum (below k l)))%Q ->
    let r := last_class 1 N gm [m0; x] [nz (below k l); y] in snd r = nz (above k l) /\ (fst r * inject_Z (nz (above k l)) == inject_Z (Zsum (above k l)))%Q.
  Proof.
    intros H. pose proof (parts_length k l) as PL. pose proof (parts_sum k l) as PS. assert (E : N - nz (below k l) = nz (above k l)) by (unfold N, nz in *; lia).
    unfold last_class. change (zseq 1) with [0]. cbn [fold_left]. change (znth 0 [nz (below k l); y] 0) with (nz (below k l)). change (znth 0%Q [m0; x] 0) with m0. rewrite E. cbn [fst snd]. split; [reflexivity|].
    destruct (nz (above k l) >? 0) eqn:K.
    - assert (P : (0 < inject_Z (nz (above k l)))%Q) by (apply inj_pos; lia). rewrite gm_ok, H. rewrite <- PS, inject_Z_plus. field. lra.
    - assert (above k l = []) as ->. { unfold nz in K. destruct (above k l); [reflexivity|cbn in K; lia]. } cbn. ring.
  Qed.

  Lemma spread_mean m r g : (m * inject_Z (nz r) == inject_Z (Zsum r))%Q -> (g == avg l)%Q -> (inject_Z (nz r) * (g - m) * (g - m) == spread_to (avg l) r)%Q.
  Proof.
    intros H G. rewrite G. unfold spread_to. fold (nz r). destruct (Z.eq_dec (nz r) 0) as [E|E]; [rewrite E; ring|]. assert (P : (0 < inject_Z (nz r))%Q) by (apply inj_pos; unfold nz in *; lia).
    assert (m == avg r)%Q as ->. { unfold avg. fold (nz r). rewrite <- H. field. lra. } ring.
  Qed.
  Lemma var_ok k m0 m1 : (m0 * inject_Z (nz (below k l)) == inject_Z (Zsum (below k l)))%Q -> (m1 * inject_Z (nz (above k l)) == inject_Z (Zsum (above k l)))%Q ->
    (varBetween gm [m0; m1] [nz (below k l); nz (above k l)] 1 == separation l k)%Q.
  Proof.
    intros H H'. unfold varBetween. change (1 + 1) with 2. change (zseq 2) with [0; 1]. cbn [fold_left]. change (znth 0%Q [m0; m1] 0) with m0. change (znth 0%Q [m0; m1] 1) with m1.
    change (znth 0 [nz (below k l); nz (above k l)] 0) with (nz (below k l)). change (znth 0 [nz (below k l); nz (above k l)] 1) with (nz (above k l)).
    rewrite (spread_mean _ _ _ H gm_avg), (spread_mean _ _ _ H' gm_avg). unfold separation, below, above. ring.
  Qed.

  Lemma tmax64 : tmax t < 2 ^ 64 - 1 /\ 1 <= tmax t /\ tmin t <= 0.
  Proof. destruct t; cbv; repeat split; congruence. Qed.
  Lemma fin_le : 0 <= fin <= tmax t.
  Proof. pose proof tmax64. unfold fin. destruct (lo <? hi) eqn:E; [lia|]. destruct (lo =? 0); lia. Qed.
  Lemma increment k h : good_map k h -> 0 <= k <= fin -> to_increment 1 (Z.of_nat (length h)) [k] 1 = if k <? fin then Some 0 else None.
  Proof.
    intros (_ & _ & _ & L) Hk. pose proof tmax64 as (T1 & T2 & _). cbn [to_increment]. change (Z.of_nat 0) with 0. change (znth 0 [k] 0) with k. rewrite L. unfold fin in *. destruct (lo <? hi) eqn:E.
    - rewrite Z.mod_small by lia. destruct (k <? _) eqn:K1, (k <? hi - 1) eqn:K2; try reflexivity; lia.
    - destruct (lo =? 0) eqn:E2.
      + assert (k = 0 \/ k = 1) as [K|K] by lia; rewrite K in *; [replace (hi - lo + 1 + Z.min (0 + 1) lo + Z.max 0 (0 - hi)) with 1 by lia|replace (hi - lo + 1 + Z.min (1 + 1) lo + Z.max 0 (1 - hi)) with 2 by lia]; reflexivity.
      + replace (hi - lo + 1 + Z.min (k + 1) lo + Z.max 0 (k - hi)) with 2 by lia. replace k with 0 by lia. reflexivity.
  Qed.

  Lemma step k s : good_state k s -> 0 <= k <= fin ->
    if k <? fin then exists s', incrementThresholds t 1 N gm s = Some s' /\ good_state (k + 1) s' else incrementThresholds t 1 N gm s = None.
  Proof.
    intros (m0 & m1 & h & -> & G & H & H') Hk. unfold incrementThresholds. change (1 <=? 0) with false. cbn [o_idx o_hist o_mean o_freq]. change (Z.to_nat 1) with 1%nat. rewrite (increment k h G Hk). destruct (k <? fin) eqn:K; [|reflexivity].
    pose proof fin_le as FL. pose proof tmax64 as (T1 & T2 & T3). change (znth 0 [k] 0) with k. change (znth 0 [nz (below k l); nz (above k l)] 0) with (nz (below k l)). change (znth 0%Q [m0; m1] 0) with m0.
    rewrite (wrap_in t (k + 1)) by lia. rename h into hh. pose proof (proj1 (proj2 G) (k + 1)) as Ec. rewrite Ec. set (c := Z.of_nat (count_occ Z.eq_dec l (k + 1))).
    change (1 - 1 - 0) with 0. change (zseq 0) with (@nil Z). cbn [map fold_left]. cbn [o_idx o_hist o_mean o_freq].
    assert (EB : nz (below k l) + c = nz (below (k + 1) l)) by (unfold nz, c; rewrite below_length; reflexivity). rewrite EB.
    set (mn := if nz (below (k + 1) l) >? 0 then _ else _). 
    assert (Hm : (mn * inject_Z (nz (below (k + 1) l)) == inject_Z (Zsum (below (k + 1) l)))%Q).
    { unfold mn. destruct (nz (below (k + 1) l) >? 0) eqn:P.
      - rewrite H, below_sum. fold c. rewrite (inject_Z_plus (Zsum (below k l))), (inject_Z_mult (k + 1) c). field. assert (0 < inject_Z (nz (below (k + 1) l)))%Q by (apply inj_pos; lia). lra.
      - assert (below (k + 1) l = []) as ->. { unfold nz in P. destruct (below (k + 1) l); [reflexivity|cbn in P; lia]. } cbn. ring. }
    change (upd [m0; m1] 0 mn) with [mn; m1]. change (upd [nz (below k l); nz (above k l)] 0 (nz (below (k + 1) l))) with [nz (below (k + 1) l); nz (above k l)]. change (upd [k] 0 (k + 1)) with [k + 1].
    destruct (last_ok (k + 1) mn m1 (nz (above k l)) Hm) as (E1 & E2). cbn beta zeta in E1, E2. eexists. split; [reflexivity|]. set (r := last_class _ _ _ _ _) in *. rewrite E1.
    exists mn, (fst r), (touch (k + 1) hh). split; [reflexivity|]. split; [apply good_touch; [lia|exact G]|]. split; [exact Hm|exact E2].
  Qed.

  Lemma loop_ok : forall fuel k s b v, good_state k s -> 0 <= k <= fin -> fin - k < Z.of_nat fuel -> 0 <= b <= k -> (v == separation l b)%Q ->
    (forall j, 0 <= j <= k -> (separation l j <= separation l b)%Q) -> (forall j, 0 <= j < b -> (separation l j < separation l b)%Q) ->
    exists b' v', otsu_loop fuel t 1 N gm s [b] v = Some ([b'], v') /\ (v' == separation l b')%Q /\ best_threshold l b' /\ b' <= fin.
  Proof.
    induction fuel as [|fuel IH]; intros k s b v G Hk Hf Hb Ev Mx Ls; [lia|]. cbn [otsu_loop]. pose proof (step k s G Hk) as St. destruct (k <? fin) eqn:K.
    - destruct St as (s' & -> & G'). assert (Vk : (varBetween gm (o_mean s') (o_freq s') 1 == separation l (k + 1))%Q). { destruct G' as (m0 & m1 & h & -> & _ & H & H'). cbn [o_mean o_freq]. apply var_ok; assumption. }
      set (w := varBetween _ _ _ _) in *. assert (Ei : o_idx s' = [k + 1]) by (destruct G' as (m0 & m1 & h & -> & _); reflexivity). rewrite Ei. destruct (Qle_bool w v) eqn:Q; cbn [negb].
      + apply Qle_bool_iff in Q. apply (IH (k + 1) s' b v); try assumption; try lia. intros j Hj. destruct (Z.eq_dec j (k + 1)) as [->|N1]; [rewrite <- Vk, <- Ev; exact Q|apply Mx; lia].
      + assert (Q' : (v < w)%Q). { destruct (Qlt_le_dec v w) as [X|X]; [exact X|]. apply Qle_bool_iff in X. congruence. }
        apply (IH (k + 1) s' (k + 1) w); try assumption; try lia.
        * intros j Hj. destruct (Z.eq_dec j (k + 1)) as [->|N1]; [apply Qle_refl|]. specialize (Mx j ltac:(lia)). rewrite <- Vk. rewrite <- Ev in Mx. lra.
        * intros j Hj. specialize (Mx j ltac:(lia)). rewrite <- Vk. rewrite <- Ev in Mx. lra.
    - rewrite St. exists b, v. split; [reflexivity|]. split; [exact Ev|]. split; [|lia]. split; [lia|]. split; [|exact Ls]. intros j Hj. destruct (Z.le_gt_cases j k) as [C|C]; [apply Mx; lia|].
      assert (Z0 : (separation l j == 0)%Q). { unfold fin in *. destruct (lo <? hi) eqn:E; [apply between_high; intros a Ha; specialize (B0 a Ha); lia|]. destruct (Z.le_gt_cases lo j); [apply between_high|apply between_low]; intros a Ha; specialize (B0 a Ha); lia. }
      rewrite Z0. apply between_nonneg.
  Qed.

  Theorem values_ok conv fuel : hi + 2 < Z.of_nat fuel ->
    exists k v, otsuThresholdValues fuel t conv 1 h0 = Some [k; conv v] /\ (v == separation l k)%Q /\ best_threshold l k /\ 0 <= k <= tmax t.
  Proof.
    intros Hf. pose proof fin_le as FL. pose proof tmax64 as (T1 & T2 & T3). unfold otsuThresholdValues, otsu_start. rewrite (total_ok h0 l lo hi M0 F0 B0). fold (nz l). fold N. fold gm. change (zseq 1) with [0]. cbn [map fold_left app]. rewrite (wrap_in t 0) by lia.
    assert (G0 : good_map 0 (touch 0 h0)).
    { change 0 with (-1 + 1). apply good_touch; [lia|]. split; [exact M0|]. split; [apply (get_count h0 l lo hi F0 B0)|]. split; [|lia]. intros v. rewrite F0. destruct ((lo <=? v) && (v <=? hi)) eqn:E; split; intros X; try discriminate; try reflexivity; try lia. }
    assert (Eg : mget 0 0 h0 = nz (below 0 l)).
    { rewrite (get_count h0 l lo hi F0 B0). unfold nz. pose proof (below_length (-1) l) as E. rewrite (below_none (-1) l) in E by (intros a Ha; specialize (B0 a Ha); lia). cbn in E. exact (eq_sym E). }
    assert (Eg' : mget 0 0 (touch 0 h0) = nz (below 0 l)) by (rewrite <- Eg, (get_count h0 l lo hi F0 B0); apply G0). rewrite Eg, Eg'.
    set (m0 := if nz (below 0 l) >? 0 then inject_Z 0 else 0%Q). assert (Hm : (m0 * inject_Z (nz (below 0 l)) == inject_Z (Zsum (below 0 l)))%Q).
    { pose proof (below_sum (-1) l) as E. rewrite (below_none (-1) l) in E by (intros a Ha; specialize (B0 a Ha); lia). change (-1 + 1) with 0 in E. rewrite E. cbn. unfold m0. destruct (_ >? _); ring. }
    destruct (last_ok 0 m0 0%Q 0 Hm) as (E1 & E2). cbn beta zeta in E1, E2. set (r := last_class _ _ _ _ _) in *. rewrite E1.
    destruct (loop_ok fuel 0 (Otsu [0] [m0; fst r] [nz (below 0 l); nz (above 0 l)] (touch 0 h0)) 0 (varBetween gm [m0; fst r] [nz (below 0 l); nz (above 0 l)] 1)) as (b & v & E & Ev & Bb & Bf).
    - exists m0, (fst r), (touch 0 h0). repeat split; try assumption; try (apply G0); apply G0.
    - lia.
    - unfold fin in *. destruct (lo <? hi) eqn:X; [lia|]. destruct (lo =? 0); lia.
    - lia.
    - apply var_ok; assumption.
    - intros j Hj. replace j with 0 by lia. apply Qle_refl.
    - intros j Hj. lia.
    - cbn [o_idx o_mean o_freq]. rewrite E. cbn [option_bind fst snd map app]. destruct Bb as (Bb0 & Bb). rewrite (wrap_in t b) by lia. exists b, v. split; [reflexivity|]. split; [exact Ev|]. split; [split; assumption|lia].
  Qed.
End Otsu.

(** ** Where the best threshold is *)
Lemma min_exists (l : list Z) : l <> [] -> exists lo, In lo l /\ forall v, In v l -> lo <= v.
Proof.
  induction l as [|a l IH]; [congruence|]. intros _. destruct l as [|b l]; [exists a; split; [left; reflexivity|intros v [<-|[]]; lia]|].
  destruct IH as (lo & I & B); [discriminate|]. exists (Z.min a lo). split; [destruct (Z.min_spec a lo) as [(_ & ->)|(_ & ->)]; [left; reflexivity|right; exact I]|]. intros v [<-|Hv]; [lia|specialize (B v Hv); lia].
Qed.
Lemma sum_lower l lo : (forall v, In v l -> lo <= v) -> lo * nz l <= Zsum l /\ ((exists v, In v l /\ lo < v) -> lo * nz l < Zsum l).
Proof.
  unfold nz. induction l as [|a l IH]; intros B; [cbn; split; [lia|intros (v & [] & _)]|]. destruct IH as (A & C); [intros v Hv; apply B; right; exact Hv|]. pose proof (B a (or_introl eq_refl)). cbn [length]. unfold Zsum in *. cbn [fold_right]. split; [nia|].
  intros (v & [<-|Hv] & Hlt); [nia|]. specialize (C (ex_intro _ v (conj Hv Hlt))). nia.
Qed.
Lemma sum_const l c : (forall v, In v l -> v = c) -> Zsum l = c * nz l.
Proof. unfold nz. induction l as [|a l IH]; intros B; [cbn; lia|]. cbn [length]. unfold Zsum in *. cbn [fold_right]. rewrite IH by (intros v Hv; apply B; right; exact Hv). rewrite (B a (or_introl eq_refl)). lia. Qed.

Lemma separation_least l lo : In lo l -> (forall v, In v l -> lo <= v) -> (exists v, In v l /\ lo < v) -> (0 < separation l lo)%Q.
Proof.
  intros I B E. unfold separation. pose proof (spread_nonneg (avg l) (filter (fun v => negb (v <=? lo)) l)) as P2. enough (0 < spread_to (avg l) (filter (fun v => v <=? lo) l))%Q by lra.
  change (filter (fun v => v <=? lo) l) with (below lo l). assert (Nb : 0 < nz (below lo l)). { unfold nz. assert (J : In lo (below lo l)) by (apply filter_In; split; [exact I|lia]). destruct (below lo l); [destruct J|cbn; lia]. }
  assert (Sb : Zsum (below lo l) = lo * nz (below lo l)). { apply sum_const. intros v Hv. apply filter_In in Hv as (Hv & Le). specialize (B v Hv). lia. }
  assert (Nl : 0 < nz l) by (unfold nz; destruct l; [destruct I|cbn; lia]). destruct (sum_lower l lo B) as (_ & St). specialize (St E).
  apply inj_pos in Nb as Qb. apply inj_pos in Nl as Ql. unfold spread_to. fold (nz (below lo l)).
  assert (Ab : (avg (below lo l) == inject_Z lo)%Q). { unfold avg. fold (nz (below lo l)). rewrite Sb, inject_Z_mult. field. lra. }
  assert (Al : (inject_Z lo < avg l)%Q). { unfold avg. fold (nz l). apply Qlt_shift_div_l; [exact Ql|]. rewrite <- inject_Z_mult, <- Zlt_Qlt. exact St. }
  rewrite Ab. set (d := (avg l - inject_Z lo)%Q). assert (0 < d)%Q by (unfold d; lra). assert (0 < d * d)%Q by nra. nra.
Qed.

Theorem best_value l k : best_threshold l k -> (forall v, In v l -> 0 <= v) -> (exists u v, In u l /\ In v l /\ u < v) -> In k l /\ exists v, In v l /\ k < v.
Proof.
  intros (K0 & Mx & Ls) Pos (u & w & Iu & Iw & Huw). destruct (min_exists l) as (lo & Il & Bl); [intros ->; exact Iu|].
  assert (Sl : (0 < separation l lo)%Q). { apply separation_least; try assumption. exists w. split; [exact Iw|]. specialize (Bl u Iu). lia. }
  pose proof (Mx lo (Pos lo Il)) as Ml. assert (Sk : (0 < separation l k)%Q) by lra.
  assert (Hl : lo <= k). { destruct (Z.le_gt_cases lo k) as [C|C]; [exact C|]. exfalso. assert (separation l k == 0)%Q by (apply between_low; intros v Hv; specialize (Bl v Hv); lia). lra. }
  split.
  - destruct (in_dec Z.eq_dec k l) as [J|J]; [exact J|exfalso]. assert (lo <> k) by congruence. pose proof (Pos lo Il). specialize (Ls (k - 1) ltac:(lia)). assert (E : separation l (k - 1) = separation l k).
    { unfold separation. assert (E1 : forall v, In v l -> (v <=? k - 1) = (v <=? k)) by (intros v Hv; assert (v <> k) by congruence; lia). rewrite (filter_ext_in (fun v => v <=? k - 1) (fun v => v <=? k) l E1). rewrite (filter_ext_in (fun v => negb (v <=? k - 1)) (fun v => negb (v <=? k)) l) by (intros v Hv; rewrite (E1 v Hv); reflexivity). reflexivity. }
    rewrite E in Ls. lra.
  - destruct (existsb (fun v => k <? v) l) eqn:X.
    + apply existsb_exists in X as (v & Hv & Lt). exists v. split; [exact Hv|lia].
    + exfalso. assert (separation l k == 0)%Q; [|lra]. apply between_high. intros v Hv. destruct (Z.le_gt_cases v k) as [C|C]; [exact C|]. assert (existsb (fun v => k <? v) l = true) by (apply existsb_exists; exists v; split; [exact Hv|lia]). congruence.
Qed.

(** ** On an image *)
Theorem otsu_image t t2 conv im mask lo hi fuel : wf_img im -> typed_img t im -> spans im lo hi -> 0 <= lo -> Z.of_nat (length (pixs im)) < 2 ^ 32 ->
  (forall m, mask = Some m -> length (pixs m) = length (pixs im)) -> counted im mask <> [] -> hi + 2 < Z.of_nat fuel ->
  exists k v R, otsuValues_image fuel t conv 1 im mask = Some (Some [k; conv v]) /\ (v == separation (counted im mask) k)%Q /\ best_threshold (counted im mask) k /\ inty t k /\
    otsuThreshold fuel t t2 conv 1 im mask = Some (Some (k, R)) /\ sz R = sz im /\ wf_img R /\
    forall x y z u w, pixel_is im x y z u -> pixel_is R x y z w -> w = if k <=? u then tmax t2 else tmin t2.
Proof.
  intros W T S Hlo HC HM HN Hf. destruct (histogram_map_exact t im mask lo hi W T S HC HM) as (h & Eh & Mh & Lh & Fh & Bh).
  destruct S as (S1 & S2 & S3). pose proof T as T'. unfold typed_img in T'. rewrite Forall_forall in T'. pose proof (T' hi S2) as Th. unfold inty in Th. pose proof (S3 _ S1).
  destruct (values_ok t h (counted im mask) lo hi Mh Fh Lh Bh ltac:(lia) HN conv fuel Hf) as (k & v & Ev & Es & Eb & Bk).
  assert (Ei : otsuValues_image fuel t conv 1 im mask = Some (Some [k; conv v])) by (unfold otsuValues_image; rewrite Eh; cbn [option_bind]; rewrite Ev; reflexivity).
  exists k, v, (Img (sz im) (map (px_thresh k (tmax t) (tmax t2) (tmin t2)) (pixs im))). split; [exact Ei|]. split; [exact Es|]. split; [exact Eb|]. split; [unfold inty; pose proof (tmax64 t); lia|]. split; [unfold otsuThreshold; rewrite Ei; reflexivity|]. split; [reflexivity|]. split; [destruct W as (W1 & W2); split; [exact W1|cbn; rewrite map_length; exact W2]|].
  intros x y z u w (_ & Pu) (_ & Pw). cbn [pixs sz] in Pw. rewrite rd_map, Pu in Pw. cbn in Pw. injection Pw as <-. pose proof (T' u (rd_In _ _ _ Pu)) as Tu. unfold inty in Tu. unfold px_thresh. destruct (k <=? u) eqn:K1, (u >=? k) eqn:K2, (u <=? tmax t) eqn:K3; cbn; try reflexivity; lia.
Qed.

(** No threshold to find: the loop never ends. *)
Lemma loop_zero t total gm : forall fuel s b v, otsu_loop fuel t 0 total gm s b v = None.
Proof. induction fuel as [|n IH]; intros; [reflexivity|]. cbn [otsu_loop]. unfold incrementThresholds. cbn [Z.leb Z.compare]. match goal with |- context [if ?c then _ else _] => destruct c end; apply IH. Qed.
Lemma values_zero fuel t conv h : otsuThresholdValues fuel t conv 0 h = None.
Proof. unfold otsuThresholdValues. destruct (otsu_start t 0 h) as ((total & gm) & s). rewrite loop_zero. reflexivity. Qed.
