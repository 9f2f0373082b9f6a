(** The Hausdorff distance. *)
From Verif Require Export Proofs.CompareProofs.
From Verif Require Import Proofs.NeighborFacts Proofs.MorphTheorems2 Proofs.MeasureProofs Proofs.GeodesicFilters Proofs.GeometryProofs Spec.MaxTreeSpec.
Local Open Scope Z_scope.

(** ** The border pixels *)
Lemma squ_good s : 2 <= dh s -> good_se (SquSE 1) s.
Proof.
  intros H. split; [split; [reflexivity|tauto]|]. split; [cbn; lia|]. split; [exact H|]. split; [exact H|]. discriminate.
Qed.
Lemma squ_sym : symmetric_se (SquSE 1).
Proof. intros p. vm_compute. split; intros H; repeat (destruct H as [H|H]; [subst p; auto 12|]); destruct H. Qed.
Lemma squ_self x y z : sees (SquSE 1) x y z x y z.
Proof. exists (0, 0, 0). split; [vm_compute; auto 12|]. unfold src_x, px_, py_, pz_. cbn [fst snd]. change (se_odd (SquSE 1)) with false. cbn [andb]. lia. Qed.

Lemma border_ok t junk cs1 cs2 im c : is_signed t = false -> good_img im -> typed_img t im -> 2 <= dh (sz im) -> two_valued im c ->
  (forall k, legal_conf (dh (sz im)) (cs1 k)) -> (forall k, legal_conf (dh (sz im)) (cs2 k)) ->
  exists l, border_pixels t junk cs1 cs2 im = Some l /\ NoDup l /\
    forall k, In k l <-> exists x y z, k = voxel_offset (dw (sz im)) (dh (sz im)) x y z /\ edge_of im (x, y, z).
Proof.
  intros U G T Hh (Hc & _ & _ & V) L1 L2. pose proof (squ_good (sz im) Hh) as HG. destruct (gradient_exact t junk cs1 cs2 (SquSE 1) (SquSE 1) im U G T L1 L2 HG HG) as (D & E & R & ED & EE & ER & P).
  destruct (new_call junk cs1 im G L1) as (_ & W & S & A & _). pose proof HG as (HT & Hs & F1 & F2 & HP).
  destruct (dilate_ok junk cs1 (tmin t) (SquSE 1) false im (new_img junk im) G W S A L1 HT Hs F1) as (D' & ED' & PD). rewrite ED in ED'. injection ED' as <-. change (Z.to_nat (se_size (SquSE 1))) with 1%nat in PD. destruct PD as (m & -> & (SD & WD & PD)).
  destruct (erode_ok junk cs2 (tmax t) (SquSE 1) false im (new_img junk im) G W S A L2 HT Hs F2 HP) as (E' & EE' & PE). rewrite EE in EE'. injection EE' as <-. change (Z.to_nat (se_size (SquSE 1))) with 1%nat in PE. destruct PE as (m & -> & (SE_ & WE & PE)).
  destruct P as (S1 & S2 & WR & PR). pose proof G as (WI & _). pose proof (tmin_unsigned t U) as Tm. unfold typed_img in T. rewrite Forall_forall in T.
  assert (Wp : wf_img (pw2 px_inf im R)). { destruct WI as (W1 & W2). destruct WR as (_ & W3). split; [exact W1|]. cbn [pw2 pixs sz]. rewrite map2_length. rewrite S1, SD in W3. replace (length (pixs R)) with (length (pixs im)) by lia. rewrite Nat.min_id. exact W2. }
  unfold border_pixels. rewrite ER. cbn [option_bind snd]. destruct (nonZeroOffsets_ok _ Wp) as (l & El & So & Il). exists l. split; [exact El|]. split.
  { clear - So. induction So as [|a l So IH F]; constructor; [|exact IH]. intros H. rewrite Forall_forall in F. specialize (F a H). lia. }
  assert (PX : forall x y z v, pixel_is im x y z v -> exists d e, pixel_is D x y z d /\ pixel_is E x y z e /\ rd (pixs (pw2 px_inf im R)) (voxel_offset (dw (sz im)) (dh (sz im)) x y z) = Some (px_inf v (Z.max 0 (d - e)))).
  { intros x y z v (I & Rv). destruct (LoopFacts.pixel_exists D x y z WD ltac:(rewrite SD; exact I)) as (d & Pd). destruct (LoopFacts.pixel_exists E x y z WE ltac:(rewrite SE_; exact I)) as (e & Pe). exists d, e. split; [exact Pd|]. split; [exact Pe|].
    cbn [pw2 pixs]. rewrite rd_map2, Rv. destruct (PR _ _ _ _ _ Pd Pe) as (_ & Rr). rewrite S1, SD in Rr. rewrite Rr. reflexivity. }
  assert (Hcp : forall v, In v (pixs im) -> 0 <= v <= tmax t) by (intros v Hv; specialize (T v Hv); unfold inty in T; lia).
  assert (Key : forall x y z v, pixel_is im x y z v -> forall w, rd (pixs (pw2 px_inf im R)) (voxel_offset (dw (sz im)) (dh (sz im)) x y z) = Some w -> (w <> 0 <-> edge_of im (x, y, z))).
  { intros x y z v Pv w Rw. destruct (PX x y z v Pv) as (d & e & Pd & Pe & Rw'). rewrite Rw in Rw'. injection Rw' as ->. pose proof Pv as (I & Rv). pose proof (rd_In _ _ _ Rv) as Iv. pose proof (Hcp v Iv) as Bv.
    destruct (PD _ _ _ _ Pd) as ((xd & yd & zd & _ & Rd) & Gd). destruct (PE _ _ _ _ Pe) as ((xe & ye & ze & Se & Re) & Le). assert (Dv : v <= d) by (apply Gd; exists x, y, z; split; [apply squ_self|left; exact Pv]).
    assert (Dc : v <> 0 -> d = v). { intros Nv. assert (v = c) as -> by (destruct (V v Iv); congruence). destruct Rd as [(_ & Rd)|(_ & ->)]; [|lia]. apply rd_In in Rd. destruct (V d Rd) as [->| ->]; lia. }
    unfold px_inf. split.
    - intros Hw. assert (Nv : v <> 0) by (intros ->; destruct (0 <? Z.max 0 (d - e)) eqn:F; lia). rewrite (Dc Nv) in Hw. assert (Hev : e < v) by (destruct (v <? Z.max 0 (v - e)) eqn:F; lia).
      destruct Re as [Pe'|(_ & ->)]; [|lia]. pose proof Pe' as (Ie & Rde). apply rd_In in Rde. assert (e = 0) as -> by (assert (v = c) by (destruct (V v Iv); congruence); destruct (V e Rde); lia).
      exists v, xe, ye, ze. split; [exact Pv|]. split; [exact Nv|]. split; [|exact Pe']. apply (sees_sym (SquSE 1) (sz im)); auto using squ_sym.
    - intros (v' & x' & y' & z' & Pv' & Nv & Ss & P0). rewrite <- (LoopFacts.pixel_is_fun _ _ _ _ _ _ Pv Pv') in Nv. pose proof P0 as (I0 & _). assert (e <= 0) by (apply Le; exists x', y', z'; split; [apply (sees_sym (SquSE 1) (sz im)); auto using squ_sym|left; exact P0]).
      rewrite (Dc Nv). destruct (v <? Z.max 0 (v - e)) eqn:F; lia. }
  intros k. rewrite Il. split.
  - intros (w & Rw & Hw). pose proof (rd_Some_range _ _ _ Rw) as Rg. destruct Wp as (Wd & Wl). rewrite Wl in Rg. destruct (LoopFacts.voxel_surj _ k Wd Rg) as (x & y & z & I & ->). cbn [pw2 sz] in *. destruct (LoopFacts.pixel_exists im x y z WI I) as (v & Pv).
    exists x, y, z. split; [reflexivity|]. apply (Key x y z v Pv w Rw). exact Hw.
  - intros (x & y & z & -> & B). pose proof B as (v & x' & y' & z' & Pv & _). destruct (PX x y z v Pv) as (d & e & _ & _ & Rw). eexists. split; [exact Rw|]. apply (Key x y z v Pv _ Rw). exact B.
Qed.

(** ** The loops *)
Definition minl (a : Z) (l : list Z) : Z := fold_left Z.min l a.
Lemma minl_spec l : forall a, (minl a l = a \/ In (minl a l) l) /\ minl a l <= a /\ forall v, In v l -> minl a l <= v.
Proof.
  unfold minl. induction l as [|b l IH]; intros a; cbn [fold_left]; [split; [auto|]; split; [lia|intros ? []]|]. destruct (IH (Z.min a b)) as (A & B & D). split; [|split; [lia|intros v [<-|Hv]; [lia|auto]]].
  destruct A as [A|A]; [|right; right; exact A]. rewrite A. destruct (Z.min_spec a b) as [(_ & ->)|(_ & ->)]; auto. right. left. reflexivity.
Qed.
Lemma minl_app a l b : minl a (l ++ [b]) = Z.min (minl a l) b.
Proof. unfold minl. rewrite fold_left_app. reflexivity. Qed.

Section Loops.
  Variables (rt : Z -> Z) (s : dims) (P Q : list Z).
  Let d (i j : Z) : Z := getDistance rt s (znth 0 P i) (znth 0 Q j).
  Let nP := Z.of_nat (length P).
  Let nQ := Z.of_nat (length Q).

  Lemma inner_loop i dg di a : 0 <= i < nP -> Z.of_nat (length dg) = nP -> Z.of_nat (length di) = nQ -> rd dg i = Some a ->
    forall n : nat, Z.of_nat n <= nQ -> exists dg' di', fold_opt (fun st j => dist_step rt s P Q i st j) (zseq (Z.of_nat n)) (dg, di) = Some (dg', di') /\
      Z.of_nat (length dg') = nP /\ Z.of_nat (length di') = nQ /\ (forall k, k <> i -> rd dg' k = rd dg k) /\ rd dg' i = Some (minl a (map (d i) (zseq (Z.of_nat n)))) /\
      (forall k b, 0 <= k < Z.of_nat n -> rd di k = Some b -> rd di' k = Some (Z.min b (d i k))) /\ (forall k, Z.of_nat n <= k -> rd di' k = rd di k).
  Proof.
    intros Hi Lg Li Ra. induction n as [|n IH]; intros Hn.
    - exists dg, di. repeat (split; [first [reflexivity|assumption|intros; lia]|]). intros; reflexivity.
    - destruct IH as (g & e & E & Lg' & Li' & A & B & C & D); [lia|]. rewrite Nat2Z.inj_succ, <- Z.add_1_r, zseq_succ, fold_opt_app, E by lia. cbn [option_bind fold_opt]. set (j := Z.of_nat n) in *.
      unfold dist_step. rewrite (rd_znth 0 P i), (rd_znth 0 Q j) by (unfold nP, nQ in *; lia). cbn [option_bind]. change (getDistance rt s (znth 0 P i) (znth 0 Q j)) with (d i j). rewrite B. cbn [option_bind].
      destruct (rd_in_range di j) as (b & Rb); [lia|]. set (mn := minl a (map (d i) (zseq j))) in *.
      assert (K1 : exists g', (if d i j <? mn then wr g i (d i j) else Some g) = Some g' /\ Z.of_nat (length g') = nP /\ (forall k, k <> i -> rd g' k = rd g k) /\ rd g' i = Some (Z.min mn (d i j))).
      { destruct (d i j <? mn) eqn:F; [|exists g; repeat split; auto; rewrite B; f_equal; lia]. exists (upd g i (d i j)). rewrite wr_upd by lia. split; [reflexivity|]. split; [rewrite upd_length; lia|]. split; [intros k Hk; rewrite rd_upd; match goal with |- context [?a =? k] => replace (a =? k) with false by lia end; reflexivity|]. rewrite rd_upd. match goal with |- context [(?a =? ?a) && (0 <=? ?a) && (?a <? ?n)] => replace ((a =? a) && (0 <=? a) && (a <? n)) with true by lia end. f_equal. lia. }
      destruct K1 as (g' & -> & Lg2 & A2 & B2). cbn [option_bind]. rewrite (D j) by lia. rewrite Rb. cbn [option_bind].
      assert (K2 : exists e', (if d i j <? b then wr e j (d i j) else Some e) = Some e' /\ Z.of_nat (length e') = nQ /\ (forall k, k <> j -> rd e' k = rd e k) /\ rd e' j = Some (Z.min b (d i j))).
      { destruct (d i j <? b) eqn:F; [|exists e; repeat split; auto; rewrite D, Rb by lia; f_equal; lia]. exists (upd e j (d i j)). rewrite wr_upd by lia. split; [reflexivity|]. split; [rewrite upd_length; lia|]. split; [intros k Hk; rewrite rd_upd; match goal with |- context [?a =? k] => replace (a =? k) with false by lia end; reflexivity|]. rewrite rd_upd. match goal with |- context [(?a =? ?a) && (0 <=? ?a) && (?a <? ?n)] => replace ((a =? a) && (0 <=? a) && (a <? n)) with true by lia end. f_equal. lia. }
      destruct K2 as (e' & -> & Le2 & C2 & D2). cbn [option_bind]. exists g', e'. split; [reflexivity|]. split; [exact Lg2|]. split; [exact Le2|]. split; [intros k Hk; rewrite A2, A by exact Hk; reflexivity|]. split; [rewrite B2, map_app; cbn [map]; rewrite minl_app; reflexivity|]. split.
      + intros k b' Hk Rk. destruct (Z.eq_dec k j) as [->|Nk]; [rewrite Rk in Rb; injection Rb as ->; exact D2|]. rewrite C2 by exact Nk. apply C; [lia|exact Rk].
      + intros k Hk. rewrite C2 by lia. apply D. lia.
  Qed.

  Lemma outer_loop dmax : exists dg di, dist_loops rt s dmax P Q = Some (dg, di) /\ Z.of_nat (length dg) = nP /\ Z.of_nat (length di) = nQ /\
    (forall i, 0 <= i < nP -> rd dg i = Some (minl dmax (map (d i) (zseq nQ)))) /\ (forall j, 0 <= j < nQ -> rd di j = Some (minl dmax (map (fun i => d i j) (zseq nP)))).
  Proof.
    unfold dist_loops. fold nP nQ.
    assert (K : forall n : nat, Z.of_nat n <= nP -> exists dg di, fold_opt (fun st i => fold_opt (fun st j => dist_step rt s P Q i st j) (zseq nQ) st) (zseq (Z.of_nat n)) (map (fun _ => dmax) P, map (fun _ => dmax) Q) = Some (dg, di) /\
      Z.of_nat (length dg) = nP /\ Z.of_nat (length di) = nQ /\ (forall i, 0 <= i < Z.of_nat n -> rd dg i = Some (minl dmax (map (d i) (zseq nQ)))) /\ (forall i, Z.of_nat n <= i < nP -> rd dg i = Some dmax) /\
      (forall j, 0 <= j < nQ -> rd di j = Some (minl dmax (map (fun i => d i j) (zseq (Z.of_nat n)))))).
    { induction n as [|n IH]; intros Hn.
      - do 2 eexists. split; [reflexivity|]. split; [rewrite map_length; reflexivity|]. split; [rewrite map_length; reflexivity|]. split; [intros; lia|]. split; intros k Hk; rewrite rd_map, (rd_znth 0) by (unfold nP, nQ in *; lia); reflexivity.
      - destruct IH as (dg & di & E & Lg & Li & A & B & C); [lia|]. rewrite Nat2Z.inj_succ, <- Z.add_1_r, zseq_succ, fold_opt_app, E by lia. cbn [option_bind fold_opt].
        destruct (inner_loop (Z.of_nat n) dg di dmax ltac:(clear - Hn; lia) Lg Li (B (Z.of_nat n) ltac:(clear - Hn; lia)) (length Q) (Z.le_refl _)) as (g & e & E2 & Lg2 & Li2 & A2 & B2 & C2 & _). change (Z.of_nat (length Q)) with nQ in E2, B2, C2. rewrite E2. cbn [option_bind]. exists g, e. split; [reflexivity|]. split; [exact Lg2|]. split; [exact Li2|]. split; [|split].
        + intros i Hi. destruct (Z.eq_dec i (Z.of_nat n)) as [->|Ni]; [exact B2|]. rewrite A2 by exact Ni. apply A. lia.
        + intros i Hi. rewrite A2 by lia. apply B. lia.
        + intros j Hj. rewrite (C2 j _ Hj (C j Hj)). rewrite map_app. cbn [map]. rewrite minl_app. reflexivity. }
    destruct (K (length P) ltac:(unfold nP; lia)) as (dg & di & E & Lg & Li & A & _ & C). change (Z.of_nat (length P)) with nP in E, A, C. exists dg, di. auto.
  Qed.
End Loops.

(** ** Least and greatest elements *)
Lemma arg_min {A} (f : A -> Z) (l : list A) : l <> [] -> exists a, In a l /\ forall b, In b l -> f a <= f b.
Proof.
  induction l as [|a l IH]; [congruence|]. intros _. destruct l as [|b l]; [exists a; split; [left; reflexivity|intros b [<-|[]]; lia]|]. destruct IH as (m & Im & Hm); [discriminate|].
  destruct (Z.le_gt_cases (f a) (f m)) as [H|H]; [exists a|exists m]; (split; [auto using in_eq, in_cons|]; intros c [<-|Hc]; [lia|specialize (Hm c Hc); lia]).
Qed.

Section Sup.
  Variables (rt : Z -> Z) (dmax : Z).
  Hypothesis mono : forall a b, 0 <= a <= b -> rt a <= rt b.
  Hypothesis top : forall a, 0 <= a -> rt a <= dmax.

  Lemma minl_rt {A} (f : A -> Z) (l : list A) : l <> [] -> (forall a, In a l -> 0 <= f a) -> exists a, In a l /\ minl dmax (map (fun b => rt (f b)) l) = rt (f a) /\ forall b, In b l -> f a <= f b.
  Proof.
    intros Ne Hf. destruct (arg_min f l Ne) as (a & Ia & Ha). exists a. split; [exact Ia|]. split; [|exact Ha]. destruct (minl_spec (map (fun b => rt (f b)) l) dmax) as (X & Y & Zz).
    assert (minl dmax (map (fun b => rt (f b)) l) <= rt (f a)) by (apply Zz, in_map_iff; eauto). pose proof (top (f a) (Hf a Ia)). destruct X as [X|X]; [lia|]. apply in_map_iff in X as (b & E & Ib). pose proof (mono (f a) (f b) (conj (Hf a Ia) (Ha b Ib))). lia.
  Qed.
  Lemma sup_rt {A} (g : A -> Z) (l : list A) : l <> [] -> (forall a, In a l -> 0 <= g a) -> exists a, In a l /\ sup_of (rt 0) (map (fun b => rt (g b)) l) = rt (g a) /\ forall b, In b l -> g b <= g a.
  Proof.
    intros Ne Hg. destruct (arg_min (fun a => - g a) l Ne) as (a & Ia & Ha). exists a. split; [exact Ia|]. split; [|intros b Hb; specialize (Ha b Hb); lia].
    destruct (fmax_spec (map (fun b => rt (g b)) l) (rt 0)) as (X & Y & Zz). change (fmax (map (fun b => rt (g b)) l) (rt 0)) with (sup_of (rt 0) (map (fun b => rt (g b)) l)) in *.
    assert (rt (g a) <= sup_of (rt 0) (map (fun b => rt (g b)) l)) by (apply Zz, in_map_iff; eauto). pose proof (mono 0 (g a) ltac:(specialize (Hg a Ia); lia)). destruct X as [X|X]; [lia|]. apply in_map_iff in X as (b & E & Ib). specialize (Ha b Ib). specialize (Hg b Ib). pose proof (mono (g b) (g a) ltac:(lia)). lia.
  Qed.
End Sup.

(** ** Distances between offsets *)
Lemma getDistance_voxel rt s x y z x' y' z' : wf_dims s -> inside s x y z -> inside s x' y' z' ->
  getDistance rt s (voxel_offset (dw s) (dh s) x y z) (voxel_offset (dw s) (dh s) x' y' z') = rt (sq_dist (x, y, z) (x', y', z')).
Proof.
  intros W I I'. unfold getDistance. destruct (box_props s) as (_ & _ & _ & _ & _ & G).
  assert (K : forall x y z, inside s x y z -> box_getCoords (box_new s) (voxel_offset (dw s) (dh s) x y z) = (x, y, z)).
  { clear - W G. intros x y z I. destruct (box_getCoords (box_new s) (voxel_offset (dw s) (dh s) x y z)) as ((a, b), c) eqn:E. pose proof (GeometryProofs.inside_range s x y z I) as R. unfold inside in I.
    destruct (G _ ltac:(lia) ltac:(lia) R a b c E) as (I' & V). destruct (NeighborFacts.voxel_inj s a b c x y z I' I V) as (-> & -> & ->). reflexivity. }
  rewrite (K x y z I), (K x' y' z' I'). f_equal. unfold sq_dist. ring.
Qed.
Lemma sq_dist_0 p q : 0 <= sq_dist p q.
Proof. destruct p as ((x, y), z), q as ((x', y'), z'). unfold sq_dist. pose proof (Z.square_nonneg (x - x')). pose proof (Z.square_nonneg (y - y')). pose proof (Z.square_nonneg (z - z')). lia. Qed.
Lemma sq_dist_sym p q : sq_dist q p = sq_dist p q.
Proof. destruct p as ((x, y), z), q as ((x', y'), z'). unfold sq_dist. ring. Qed.

(** A list of offsets as a list of points. *)
Lemma points_of s (A : Z * Z * Z -> Prop) l : (forall x y z, A (x, y, z) -> inside s x y z) ->
  (forall k, In k l <-> exists x y z, k = voxel_offset (dw s) (dh s) x y z /\ A (x, y, z)) ->
  exists ps, l = map (fun '(x, y, z) => voxel_offset (dw s) (dh s) x y z) ps /\ forall p, In p ps <-> A p.
Proof.
  intros HI H. assert (K : forall k, In k l -> exists x y z, k = voxel_offset (dw s) (dh s) x y z /\ A (x, y, z)) by (intros k; apply H).
  assert (X : exists ps, l = map (fun '(x, y, z) => voxel_offset (dw s) (dh s) x y z) ps /\ Forall A ps).
  { clear H. induction l as [|k l IH]; [exists []; split; [reflexivity|constructor]|].
    destruct IH as (ps & -> & F); [intros k' Hk'; apply K; right; exact Hk'|]. destruct (K k (or_introl eq_refl)) as (x & y & z & -> & Ha). exists ((x, y, z) :: ps). split; [reflexivity|constructor; assumption]. }
  destruct X as (ps & -> & F). exists ps. split; [reflexivity|]. rewrite Forall_forall in F. intros p. split; [apply F|]. destruct p as ((x, y), z). intros Hp.
  assert (I : In (voxel_offset (dw s) (dh s) x y z) (map (fun '(x, y, z) => voxel_offset (dw s) (dh s) x y z) ps)) by (apply H; exists x, y, z; split; [reflexivity|exact Hp]).
  apply in_map_iff in I as (((a, b), c) & E & I). destruct (NeighborFacts.voxel_inj s a b c x y z (HI _ _ _ (F _ I)) (HI _ _ _ Hp) E) as (-> & -> & ->). exact I.
Qed.

Lemma map_znth {B} (f : Z -> B) (l : list Z) : map (fun i => f (znth 0 l i)) (zseq (Z.of_nat (length l))) = map f l.
Proof.
  apply list_ext_rd; [rewrite !map_length, zseq_length; lia|]. intros k. rewrite map_length, zseq_length. intros R. rewrite !rd_map, rd_zseq by lia. destruct (rd_in_range l k ltac:(lia)) as (v & E). rewrite E. cbn [option_map]. rewrite (znth_rd 0 _ _ _ E). reflexivity.
Qed.

Lemma lists_eq {A} (l l' : list A) n : Z.of_nat (length l) = n -> Z.of_nat (length l') = n -> (forall i, 0 <= i < n -> rd l i = rd l' i) -> l = l'.
Proof. intros H H' E. apply list_ext_rd; [lia|]. intros k Hk. apply E. lia. Qed.

Theorem hausdorff rt zero dmax bad t junk cs gt im c c' :
  is_signed t = false -> good_img gt -> good_img im -> sz gt = sz im -> typed_img t gt -> typed_img t im -> 2 <= dh (sz gt) -> two_valued gt c -> two_valued im c' ->
  (forall i k, legal_conf (dh (sz gt)) (cs i k)) -> (forall a b, 0 <= a <= b -> rt a <= rt b) -> (forall a, 0 <= a -> rt a <= dmax) -> zero = rt 0 ->
  (exists p, edge_of gt p) -> (exists q, edge_of im q) ->
  exists h, distanceHausdorff rt zero dmax bad t junk cs gt im = Some (rt h) /\ hausdorff_sq (edge_of gt) (edge_of im) h.
Proof.
  intros U G1 G2 Es T1 T2 Hh B1 B2 L Mo Tp -> (p0 & Hp0) (q0 & Hq0). unfold distanceHausdorff. rewrite (same_size_true gt im Es). cbn [negb].
  rewrite (proj1 (binary_test gt) (ex_intro _ c B1)), (proj1 (binary_test im) (ex_intro _ c' B2)). cbn [negb orb].
  destruct (border_ok t junk (cs 0%nat) (cs 1%nat) gt c U G1 T1 Hh B1 (L 0%nat) (L 1%nat)) as (P & EP & _ & HP). destruct (border_ok t junk (cs 2%nat) (cs 3%nat) im c' U G2 T2 ltac:(rewrite <- Es; exact Hh) B2 ltac:(rewrite <- Es; apply L) ltac:(rewrite <- Es; apply L)) as (Q & EQ & _ & HQ).
  rewrite EP, EQ. cbn [option_bind]. destruct (outer_loop rt (sz gt) P Q dmax) as (dg & di & E & Lg & Li & Hg & Hi). rewrite E. cbn [option_bind]. rewrite <- Es in HQ.
  assert (Np : forall im x y z, edge_of im (x, y, z) -> inside (sz im) x y z) by (intros ? ? ? ? (? & ? & ? & ? & (I & _) & _); exact I).
  destruct (points_of (sz gt) _ P (Np gt) HP) as (ps & -> & Ip). destruct (points_of (sz gt) _ Q ltac:(rewrite Es; apply Np) HQ) as (qs & -> & Iq). set (vo := fun '(x, y, z) => voxel_offset (dw (sz gt)) (dh (sz gt)) x y z) in *.
  assert (Dv : forall p q, In p ps -> In q qs -> getDistance rt (sz gt) (vo p) (vo q) = rt (sq_dist p q)).
  { intros ((x, y), z) ((x', y'), z') Hp Hq. apply Ip, Np in Hp. apply Iq, Np in Hq. rewrite <- Es in Hq. apply getDistance_voxel; [apply G1|exact Hp|exact Hq]. }
  assert (Nq : ps <> []) by (intros ->; apply Ip in Hp0; exact Hp0). assert (Nq' : qs <> []) by (intros ->; apply Iq in Hq0; exact Hq0).
  (* the nearest point of the other list *)
  assert (C1 : forall p, exists g, In p ps -> exists q, In q qs /\ g = sq_dist p q /\ forall q', In q' qs -> g <= sq_dist p q').
  { intros p. destruct (arg_min (sq_dist p) qs Nq') as (q & Hq & Le). exists (sq_dist p q). intros _. exists q. auto. }
  set (near1 := fun p => minl (sq_dist p (hd p0 qs)) (map (sq_dist p) qs)). set (near2 := fun q => minl (sq_dist (hd p0 ps) q) (map (fun p => sq_dist p q) ps)).
  assert (M : forall (f : Z * Z * Z -> Z) l, l <> [] -> (forall a, In a l -> 0 <= f a) -> let m := minl (f (hd p0 l)) (map f l) in minl dmax (map (fun a => rt (f a)) l) = rt m /\ (exists a, In a l /\ m = f a) /\ forall a, In a l -> m <= f a).
  { intros f l Nl Hf m. destruct (minl_rt rt dmax Mo Tp f l Nl Hf) as (a & Ia & Ea & La). destruct (minl_spec (map f l) (f (hd p0 l))) as (X & Y & Zz). fold m in X, Y, Zz.
    assert (Hm : exists b, In b l /\ m = f b). { destruct X as [X|X]; [exists (hd p0 l); split; [destruct l; [congruence|left; reflexivity]|exact X]|]. apply in_map_iff in X as (b & Eb & Ib). exists b. auto. }
    assert (Lm : forall b, In b l -> m <= f b) by (intros b Ib; apply Zz, in_map; exact Ib). split; [|auto]. rewrite Ea. f_equal. destruct Hm as (b & Ib & Eb). specialize (La b Ib). specialize (Lm a Ia). lia. }
  assert (Edg : dg = map (fun p => rt (near1 p)) ps).
  { apply (lists_eq _ _ (Z.of_nat (length ps))); [rewrite Lg, map_length; reflexivity|rewrite map_length; reflexivity|]. intros i Ri. rewrite (Hg i) by (rewrite map_length; exact Ri). destruct (rd_in_range ps i Ri) as (p & Rp). rewrite rd_map, Rp. cbn [option_map]. f_equal.
    rewrite (map_znth (fun o => getDistance rt (sz gt) (znth 0 (map vo ps) i) o) (map vo qs)). rewrite map_map. rewrite (znth_rd 0 (map vo ps) i (vo p)) by (rewrite rd_map, Rp; reflexivity).
    rewrite (map_ext_in _ (fun q => rt (sq_dist p q))) by (intros q Hq; apply Dv; [apply (rd_In _ _ _ Rp)|exact Hq]). apply (M (sq_dist p) qs Nq'). intros; apply sq_dist_0. }
  assert (Edi : di = map (fun q => rt (near2 q)) qs).
  { apply (lists_eq _ _ (Z.of_nat (length qs))); [rewrite Li, map_length; reflexivity|rewrite map_length; reflexivity|]. intros i Ri. rewrite (Hi i) by (rewrite map_length; exact Ri). destruct (rd_in_range qs i Ri) as (q & Rq). rewrite rd_map, Rq. cbn [option_map]. f_equal.
    rewrite (map_znth (fun o => getDistance rt (sz gt) o (znth 0 (map vo qs) i)) (map vo ps)). rewrite map_map. rewrite (znth_rd 0 (map vo qs) i (vo q)) by (rewrite rd_map, Rq; reflexivity).
    rewrite (map_ext_in _ (fun p => rt (sq_dist p q))) by (intros p Hp; apply Dv; [exact Hp|apply (rd_In _ _ _ Rq)]). apply (M (fun p => sq_dist p q) ps Nq). intros; apply sq_dist_0. }
  assert (K1 : forall p, In p ps -> (exists q, In q qs /\ near1 p = sq_dist p q) /\ forall q, In q qs -> near1 p <= sq_dist p q) by (intros p _; apply (M (sq_dist p) qs Nq'); intros; apply sq_dist_0).
  assert (K2 : forall q, In q qs -> (exists p, In p ps /\ near2 q = sq_dist p q) /\ forall p, In p ps -> near2 q <= sq_dist p q) by (intros q _; apply (M (fun p => sq_dist p q) ps Nq); intros; apply sq_dist_0).
  destruct (sup_rt rt dmax Mo Tp near1 ps Nq) as (a & Ia & Ea & La); [intros p Hp; destruct (K1 p Hp) as ((q & _ & ->) & _); apply sq_dist_0|].
  destruct (sup_rt rt dmax Mo Tp near2 qs Nq') as (b & Ib & Eb & Lb); [intros q Hq; destruct (K2 q Hq) as ((p & _ & ->) & _); apply sq_dist_0|].
  rewrite Edg, Edi, Ea, Eb. assert (P1 : 0 <= near1 a) by (destruct (K1 a Ia) as ((q & _ & ->) & _); apply sq_dist_0). assert (P2 : 0 <= near2 b) by (destruct (K2 b Ib) as ((p & _ & ->) & _); apply sq_dist_0).
  exists (Z.max (near1 a) (near2 b)). split.
  { f_equal. destruct (Z.max_spec (near1 a) (near2 b)) as [(H & ->)|(H & ->)]; [pose proof (Mo (near1 a) (near2 b) ltac:(lia))|pose proof (Mo (near2 b) (near1 a) ltac:(lia))]; lia. }
  split; [|split].
  - intros p Hp. apply Ip in Hp. destruct (K1 p Hp) as ((q & Hq & E1) & _). exists q. split; [apply Iq; exact Hq|]. rewrite <- E1. specialize (La p Hp). lia.
  - intros q Hq. apply Iq in Hq. destruct (K2 q Hq) as ((p & Hp & E1) & _). exists p. split; [apply Ip; exact Hp|]. rewrite <- E1. specialize (Lb q Hq). lia.
  - destruct (Z.max_spec (near1 a) (near2 b)) as [(H & ->)|(H & ->)].
    + right. exists b. split; [apply Iq; exact Ib|]. intros p Hp. apply (K2 b Ib). apply Ip. exact Hp.
    + left. exists a. split; [apply Ip; exact Ia|]. intros q Hq. apply (K1 a Ia). apply Iq. exact Hq.
Qed.

(** A connected image of two values has a border. *)
Lemma edge_exists im c : wf_img im -> connecting (SquSE 1) im -> two_valued im c -> exists p, edge_of im p.
Proof.
  intros W Co (Hc & I0 & Ic & V). assert (At : forall v, In v (pixs im) -> exists x y z, pixel_is im x y z v).
  { intros v Iv. apply In_rd in Iv as (k & _ & Rk). pose proof (rd_Some_range _ _ _ Rk) as R. destruct W as (Wd & Wl). rewrite Wl in R. destruct (LoopFacts.voxel_surj _ k Wd R) as (x & y & z & I & ->). exists x, y, z. split; assumption. }
  destruct (At 0 I0) as (x0 & y0 & z0 & P0). destruct (At c Ic) as (x1 & y1 & z1 & P1).
  assert (K : forall x y z, joined (SquSE 1) (fun _ => True) (fun a b c => a = x0 /\ b = y0 /\ c = z0) im x y z -> forall v, pixel_is im x y z v -> v <> 0 -> exists p, edge_of im p).
  { intros x y z J. induction J as [x y z b (-> & -> & ->) Pb _|x y z x' y' z' b J IH Ss Pb _]; intros v Pv Nv.
    - elim Nv. apply (LoopFacts.pixel_is_fun _ _ _ _ _ _ Pv P0).
    - assert (I' : inside (sz im) x' y' z') by (inversion J as [? ? ? b0 _ (I' & _) _|? ? ? ? ? ? b0 _ _ (I' & _) _]; exact I'). destruct (LoopFacts.pixel_exists im x' y' z' W I') as (w & Pw). destruct (Z.eq_dec w 0) as [->|Nw]; [|apply (IH w Pw Nw)].
      exists (x, y, z), v, x', y', z'. auto. }
  apply (K x1 y1 z1 (Co _ _ _ _ _ _ (proj1 P0) (proj1 P1)) c P1 Hc).
Qed.
