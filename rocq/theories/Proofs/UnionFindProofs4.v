(** Union-find: the passes. *)
From Verif Require Export Proofs.UnionFindProofs3 Proofs.StrEltProofs.

Local Notation "l # i" := (znth 0 l i) (at level 9).

Lemma uf_coords_voxel s x y z : inside s x y z -> uf_coords s (voxel_offset (dw s) (dh s) x y z) = (x, y, z).
Proof.
  intros (X & Y & Z0). unfold uf_coords, voxel_offset. set (w := dw s) in *. set (h := dh s) in *.
  assert (M : (x + w * (y + h * z)) mod w = x) by (rewrite (Z.mul_comm w), Z_mod_plus_full; apply Z.mod_small; lia).
  assert (Q : (x + w * (y + h * z)) / w = y + h * z) by (rewrite (Z.mul_comm w), Z.div_add by lia; rewrite Z.div_small by lia; lia).
  destruct (dd s >? 1) eqn:D.
  - assert (B : 0 <= x + w * y < h * w) by nia.
    replace (x + w * (y + h * z)) with ((x + w * y) + z * (h * w)) in * by ring.
    rewrite Z_mod_plus_full, (Z.mod_small (x + w * y)) by exact B. rewrite Z.div_add by lia. rewrite (Z.div_small (x + w * y) (h * w)) by exact B.
    rewrite M. rewrite (Z.mul_comm w y), Z.div_add by lia. rewrite (Z.div_small x w) by lia. reflexivity.
  - assert (z = 0) as -> by lia. rewrite M, Q. rewrite Z.mul_0_r, Z.add_0_r. reflexivity.
Qed.
Lemma uf_window_spec s x y z : uf_window s x y z = true <-> inside s x y z.
Proof. unfold uf_window, inside. lia. Qed.
Lemma uf_pixel_voxel s x y z dx dy dz : inside s x y z -> inside s (x + dx) (y + dy) (z + dz) ->
  voxel_offset (dw s) (dh s) x y z + uf_pixel s dx dy dz = voxel_offset (dw s) (dh s) (x + dx) (y + dy) (z + dz).
Proof.
  intros (X & Y & Z0) (X' & Y' & Z'). unfold uf_pixel, voxel_offset. destruct (dd s >? 1) eqn:D; [ring|]. assert (dz = 0) as -> by lia. ring.
Qed.

Section passes.
Variables (t : ity) (se : strelt) (s : dims) (px : list Z) (lam : Z).
Hypothesis Hs : wf_dims s.
Local Notation N := (dw s * dh s * dd s).
Hypothesis Hlen : Z.of_nat (length px) = N.
Hypothesis Hty : forall p, 0 <= p < dw s * dh s * dd s -> inty t (px # p).
Hypothesis Hodd : se_odd se = false.
Hypothesis Hsy : symmetric_se se.
Hypothesis Hlam : 1 <= lam.
Local Notation adj := (covers se s).
Local Notation rk := (rank px).
Local Notation uinv := (uinv px N lam adj rk N).
Local Notation lk := (lk px N adj).

Lemma uf_planar : planar se s.
Proof using Hs Hlen Hodd Hsy Hlam Hty. intros H. congruence. Qed.
Lemma uf_adj_sym p q : adj p q -> adj q p.
Proof using Hs Hlen Hodd Hsy Hlam Hty. apply (covers_sym se s Hsy uf_planar). Qed.
Lemma uf_adj_rng p q : adj p q -> 0 <= p < N.
Proof using Hs Hlen Hodd Hsy Hlam Hty. intros (x & y & z & x' & y' & z' & I & _ & -> & _). apply inside_range. exact I. Qed.

(** What the scan looks at. *)
Definition near (p : Z) (d : point) : option Z :=
  let '(x, y, z) := uf_coords s p in if uf_window s (x + px_ d) (y + py_ d) (z + pz_ d) then Some (p + uf_pixel s (px_ d) (py_ d) (pz_ d)) else None.

Lemma sees_plus x y z x' y' z' : sees se x y z x' y' z' <-> exists d, In d (se_points se) /\ x' = x + px_ d /\ y' = y + py_ d /\ z' = z + pz_ d.
Proof using Hs Hlen Hodd Hsy Hlam Hty.
  assert (T : forall d, In d (se_points se) <-> In (- px_ d, - py_ d, - pz_ d) (se_points se)).
  { assert (One : forall d, In d (se_points se) -> In (- px_ d, - py_ d, - pz_ d) (se_points se)).
    { intros d Hd. apply Hsy. apply transpose_In. rewrite Hodd. destruct d as ((a, b), c). unfold refl_pt, px_, py_, pz_. cbn [fst snd andb bit]. rewrite !Z.opp_involutive, ?Z.sub_0_r. exact Hd. }
    intros d. split; [apply One|]. intros H. apply One in H. destruct d as ((a, b), c). unfold px_, py_, pz_ in H. cbn [fst snd] in H. rewrite !Z.opp_involutive in H. exact H. }
  unfold sees, src_x. rewrite Hodd. cbn [andb]. split; intros (d & Hd & A & B & C); exists (- px_ d, - py_ d, - pz_ d); (split; [apply T in Hd; exact Hd|]); unfold px_, py_, pz_ in *; cbn [fst snd]; lia.
Qed.

Lemma near_adj p d q : 0 <= p < N -> In d (se_points (noCenter se)) -> near p d = Some q -> adj p q.
Proof using Hs Hlen Hodd Hsy Hlam Hty.
  intros R Hd H. apply noCenter_In in Hd as (Hd & _). destruct (LoopFacts.voxel_surj s p Hs R) as (x & y & z & I & ->). unfold near in H. rewrite uf_coords_voxel in H by exact I.
  destruct (uf_window s _ _ _) eqn:Wd; [|discriminate]. apply uf_window_spec in Wd. injection H as <-. rewrite uf_pixel_voxel by assumption.
  exists x, y, z, (x + px_ d), (y + py_ d), (z + pz_ d). split; [exact I|]. split; [exact Wd|]. split; [reflexivity|]. split; [reflexivity|]. apply sees_plus. exists d. auto.
Qed.
Lemma adj_near p q : adj p q -> p <> q -> exists d, In d (se_points (noCenter se)) /\ near p d = Some q.
Proof using Hs Hlen Hodd Hsy Hlam Hty.
  intros (x & y & z & x' & y' & z' & I & I' & -> & -> & S) Npq. apply sees_plus in S as (d & Hd & -> & -> & ->). exists d. split.
  - apply noCenter_In. split; [exact Hd|]. intros ->. apply Npq. unfold px_, py_, pz_. cbn [fst snd]. rewrite !Z.add_0_r. reflexivity.
  - unfold near. rewrite uf_coords_voxel by exact I. rewrite (proj2 (uf_window_spec _ _ _ _) I'). rewrite uf_pixel_voxel by assumption. reflexivity.
Qed.

(** ** One union *)
Lemma union_ok fuel D E par p n : uinv D E (fun q => par # q) (px # p) -> Z.of_nat (length par) = N -> D p -> par # p < 0 -> D n -> adj p n ->
  (forall q, D q -> q <> p -> rk q < rk p) -> (Z.to_nat N < fuel)%nat ->
  exists par', uf_union fuel px lam par n p = Some (Some par') /\ length par' = length par /\ par' # p < 0 /\ uinv D (join_edge E p n) (fun q => par' # q) (px # p).
Proof using Hs Hlen Hodd Hsy Hlam Hty.
  intros V Lp Dp Fp Dn Ad Lat F. pose proof (v_rk _ _ _ _ _ _ _ _ _ _ V) as Rk. pose proof (v_dom _ _ _ _ _ _ _ _ _ _ V) as Dom. pose proof (v_rank _ _ _ _ _ _ _ _ _ _ V) as Rd.
  destruct (find_ok D rk N Rk fuel par n Rd) as (par1 & r & E1 & L1 & R1 & S1); [rewrite Lp; exact Dom|exact Dn|specialize (Rk n Dn); lia|].
  assert (D r) as Dr by (apply (root_in D rk N Rk _ n r Rd Dn R1)).
  assert (P0 : forall q, D q -> 0 <= q) by (intros q Dq; apply (Dom q Dq)).
  pose proof (uinv_squeezed px N lam adj rk N uf_adj_sym uf_adj_rng Hlam D E _ _ _ V S1) as V1.
  assert (R1' : root (fun q => par1 # q) n r) by (apply (squeezed_root D rk N Rk _ _ n r S1 P0 Rd Dn); exact R1).
  assert (Fp1 : par1 # p < 0) by (rewrite (squeezed_neg D rk N Rk _ _ p S1 P0 Rd Fp); exact Fp).
  pose proof (root_neg _ _ _ R1') as Fr1. cbv beta in Fr1.
  assert (Lp1 : Z.of_nat (length par1) = N) by lia.
  unfold uf_union. rewrite E1. cbn [fuel_bind]. destruct (r =? p) eqn:Q.
  - exists par1. split; [reflexivity|]. split; [exact L1|]. split; [exact Fp1|].
    apply (union_same px N lam adj rk N uf_adj_sym uf_adj_rng Hlam D E _ p n r V1 Dp Fp1 Dn Ad R1'). lia.
  - assert (r <> p) as Np by lia. unfold uf_criterion. rewrite !(rd_znth 0) by (rewrite ?Hlen, ?Lp1; apply Dom; assumption). cbn [option_bind].
    destruct (((px # r =? px # p) || (- par1 # r <? lam))) eqn:Cr.
    + rewrite !wr_upd by (rewrite ?upd_length, ?Lp1; apply Dom; assumption). cbn [option_bind]. rewrite wr_upd by (rewrite ?upd_length, ?Lp1; apply Dom; assumption).
      exists (upd (upd par1 p (par1 # p + par1 # r)) r p). split; [reflexivity|]. split; [rewrite !upd_length; exact L1|].
      assert (Ez : forall q, (fun q => if q =? r then p else if q =? p then par1 # p + par1 # r else par1 # q) q = (upd (upd par1 p (par1 # p + par1 # r)) r p) # q).
      { intros q. rewrite !znth_upd' by (rewrite ?upd_length, ?Lp1; apply Dom; assumption). reflexivity. }
      split; [rewrite <- Ez; rewrite Z.eqb_refl; destruct (p =? r) eqn:Q'; lia|].
      eapply uinv_ext; [exact uf_adj_sym|exact uf_adj_rng|exact Hlam| |exact Ez].
      apply (union_merge px N lam adj rk N uf_adj_sym uf_adj_rng Hlam D E (fun q => par1 # q) p n r V1 Dp Fp1 Dn Ad R1' Np); [apply Lat; assumption|]. cbv beta. lia.
    + rewrite wr_upd by (rewrite ?Lp1; apply Dom; assumption). exists (upd par1 p (- lam)). split; [reflexivity|]. split; [rewrite upd_length; exact L1|].
      assert (Ez : forall q, (fun q => if q =? p then - lam else par1 # q) q = (upd par1 p (- lam)) # q).
      { intros q. rewrite !znth_upd' by (rewrite ?Lp1; apply Dom; assumption). reflexivity. }
      split; [rewrite <- Ez; rewrite Z.eqb_refl; lia|]. eapply uinv_ext; [exact uf_adj_sym|exact uf_adj_rng|exact Hlam| |exact Ez].
      apply (union_full px N lam adj rk N uf_adj_sym uf_adj_rng Hlam D E (fun q => par1 # q) p n r V1 Dp Fp1 Dn Ad R1' Np); cbv beta; lia.
Qed.

(** ** The neighbours of a pixel *)
Definition among (D : Z -> Prop) (a b : Z) : Prop := adj a b /\ D a /\ D b.
Definition seen (D : Z -> Prop) (p : Z) (ns : list Z) (a b : Z) : Prop := among D a b \/ (a = p /\ In b ns) \/ (b = p /\ In a ns).

Section scan.
Variables (D : Z -> Prop) (p : Z) (fuel : nat).
Hypothesis Rp : 0 <= p < N.
Hypothesis HD : forall q, D q <-> 0 <= q < N /\ before px q p.
Hypothesis HF : (Z.to_nat N < fuel)%nat.
Local Notation D' := (fun q => D q \/ q = p).

Lemma scan_ok pts ns par : (forall d, In d pts -> In d (se_points (noCenter se))) -> Z.of_nat (length par) = N -> par # p < 0 -> (forall q, In q ns -> D q /\ adj p q) ->
  uinv D' (seen D p ns) (fun q => par # q) (px # p) ->
  exists par' ns', uf_scan fuel s px lam p pts par = Some (Some par') /\ length par' = length par /\ par' # p < 0 /\
    (forall q, In q ns' <-> In q ns \/ (D q /\ exists d, In d pts /\ near p d = Some q)) /\ uinv D' (seen D p ns') (fun q => par' # q) (px # p).
Proof using Hs Hlen Hodd Hsy Hlam Hty Rp HD HF.
  revert ns par. induction pts as [|d pts IH]; intros ns par Hpts Lp Fp Hns V.
  { exists par, ns. split; [reflexivity|]. split; [reflexivity|]. split; [exact Fp|]. split; [|exact V]. intros q. split; [auto|intros [H|(_ & ? & [] & _)]; exact H]. }
  cbn [uf_scan]. pose proof (near_adj p d) as NA. unfold near in NA. destruct (uf_coords s p) as ((x, y), z) eqn:Ec.
  destruct (uf_window s (x + px_ d) (y + py_ d) (z + pz_ d)) eqn:Wd; cbn [negb].
  - set (nb := p + uf_pixel s (px_ d) (py_ d) (pz_ d)) in *. assert (adj p nb) as Ad by (apply NA; [exact Rp|apply Hpts; left; reflexivity|reflexivity]).
    assert (0 <= nb < N) as Rn by (apply (uf_adj_rng nb p), uf_adj_sym; exact Ad).
    assert (Nd : near p d = Some nb) by (unfold near; rewrite Ec, Wd; reflexivity).
    rewrite !(rd_znth 0) by lia. cbn [option_bind]. change ((px # p <? px # nb) || ((px # p =? px # nb) && (nb <? p))) with ((px # p <? px # nb) || ((px # p =? px # nb) && (nb <? p))).
    destruct ((px # p <? px # nb) || ((px # p =? px # nb) && (nb <? p))) eqn:Q.
    + assert (D nb) as Dn by (apply HD; split; [exact Rn|unfold before; lia]).
      destruct (union_ok fuel D' (seen D p ns) par p nb V Lp (or_intror eq_refl) Fp (or_introl Dn) Ad) as (par1 & E1 & L1 & F1 & V1); [|exact HF|].
      { intros q [Dq|Eq] Nq; [|contradiction]. apply HD in Dq as (Rq & Bq). apply rank_before; [rewrite Hlen; exact Rq|exact Bq]. }
      rewrite E1. cbn [fuel_bind]. destruct (IH (nb :: ns) par1) as (par2 & ns2 & E2 & L2 & F2 & I2 & V2).
      * intros d' Hd'. apply Hpts. right. exact Hd'.
      * lia.
      * exact F1.
      * intros q [<- |Hq]; [auto|apply Hns; exact Hq].
      * apply (uinv_edges px N lam adj rk N uf_adj_sym uf_adj_rng Hlam D' _ (seen D p (nb :: ns)) _ _ V1).
        -- intros a b [(A & A1 & A2)|[(-> & [<- |Hb])|(-> & [<- |Ha])]]; [auto|auto| |split; [apply uf_adj_sym; exact Ad|auto]|].
           ++ split; [apply Hns; exact Hb|auto].
           ++ split; [apply uf_adj_sym, Hns; exact Ha|left; apply Hns; exact Ha].
        -- intros a b [(A & A1 & A2)|[(A1 & A2)|(A1 & A2)]]; [left; split; [apply uf_adj_sym; exact A|auto]|right; right; auto|right; left; auto].
        -- intros a b A B C. left. split; [exact A|]. split; apply HD; [split; [exact (uf_adj_rng _ _ A)|left; exact B]|split; [exact (uf_adj_rng _ _ (uf_adj_sym _ _ A))|left; exact C]].
        -- intros a b. split; apply kon_mono; intros u v; unfold join_edge, seen; cbn [In].
           ++ intros [H|[(-> & [<- |H])|(-> & [<- |H])]]; auto 6.
           ++ intros [[H|[(-> & H)|(-> & H)]]|[(-> & ->)|(-> & ->)]]; auto 6.
      * exists par2, ns2. split; [exact E2|]. split; [lia|]. split; [exact F2|]. split; [|exact V2]. intros q. rewrite I2. cbn [In]. split.
        -- intros [[<- |H]|(H1 & d' & H2 & H3)]; [right; split; [exact Dn|exists d; auto]|auto|right; split; [exact H1|exists d'; auto]].
        -- intros [H|(H1 & d' & [<- |H2] & H3)]; [auto|left; left; congruence|right; split; [exact H1|exists d'; auto]].
    + destruct (IH ns par) as (par2 & ns2 & E2 & L2 & F2 & I2 & V2); [intros d' Hd'; apply Hpts; right; exact Hd'|assumption..|].
      exists par2, ns2. split; [exact E2|]. split; [exact L2|]. split; [exact F2|]. split; [|exact V2]. intros q. rewrite I2. split.
      * intros [H|(H1 & d' & H2 & H3)]; [auto|right; split; [exact H1|exists d'; split; [right; exact H2|exact H3]]].
      * intros [H|(H1 & d' & [<- |H2] & H3)]; [auto| |right; split; [exact H1|exists d'; auto]]. exfalso. rewrite Nd in H3. injection H3 as <-. apply HD in H1 as (_ & H1). unfold before in H1. lia.
  - assert (Nd : near p d = None) by (unfold near; rewrite Ec, Wd; reflexivity).
    destruct (IH ns par) as (par2 & ns2 & E2 & L2 & F2 & I2 & V2); [intros d' Hd'; apply Hpts; right; exact Hd'|assumption..|].
    exists par2, ns2. split; [exact E2|]. split; [exact L2|]. split; [exact F2|]. split; [|exact V2]. intros q. rewrite I2. split.
    * intros [H|(H1 & d' & H2 & H3)]; [auto|right; split; [exact H1|exists d'; split; [right; exact H2|exact H3]]].
    * intros [H|(H1 & d' & [<- |H2] & H3)]; [auto|congruence|right; split; [exact H1|exists d'; auto]].
Qed.

Lemma pixel_step par : Z.of_nat (length par) = N -> uinv D (among D) (fun q => par # q) (px # p) ->
  exists par', uf_scan fuel s px lam p (se_points (noCenter se)) (upd par p (-1)) = Some (Some par') /\ length par' = length par /\
    uinv D' (among D') (fun q => par' # q) (px # p).
Proof using Hs Hlen Hodd Hsy Hlam Hty Rp HD HF.
  intros Lp V. assert (~ D p) as Np by (intros H; apply HD in H as (_ & H); exact (before_irrefl px p H)).
  assert (0 <= rk p <= N) as Rkp by (rewrite <- Hlen; apply rank_range).
  pose proof (uinv_make px N lam adj rk N uf_adj_sym uf_adj_rng Hlam D (among D) _ _ p V Np Rp Rkp eq_refl) as V0.
  destruct (scan_ok (se_points (noCenter se)) [] (upd par p (-1))) as (par' & ns & E1 & L1 & F1 & I1 & V1).
  - auto.
  - rewrite upd_length. exact Lp.
  - rewrite znth_upd' by lia. rewrite Z.eqb_refl. lia.
  - intros q [].
  - assert (Ez : forall q, (fun q => if q =? p then -1 else par # q) q = (upd par p (-1)) # q) by (intros q; rewrite znth_upd' by lia; reflexivity).
    eapply uinv_ext; [exact uf_adj_sym|exact uf_adj_rng|exact Hlam| |exact Ez].
    apply (uinv_edges px N lam adj rk N uf_adj_sym uf_adj_rng Hlam D' _ (seen D p []) _ _ V0).
    + intros a b [(A & A1 & A2)|[(_ & [])|(_ & [])]]. auto.
    + intros a b [(A & A1 & A2)|[(_ & [])|(_ & [])]]. left. split; [apply uf_adj_sym; exact A|auto].
    + intros a b A B C. left. split; [exact A|]. split; apply HD; [split; [exact (uf_adj_rng _ _ A)|left; exact B]|split; [exact (uf_adj_rng _ _ (uf_adj_sym _ _ A))|left; exact C]].
    + intros a b. split; apply kon_mono; intros u v; unfold seen; [intros [H|[(_ & [])|(_ & [])]]; exact H|auto].
  - exists par'. split; [exact E1|]. split; [rewrite L1, upd_length; reflexivity|].
    apply (uinv_edges px N lam adj rk N uf_adj_sym uf_adj_rng Hlam D' _ (among D') _ _ V1).
    + intros a b (A & A1 & A2). auto.
    + intros a b (A & A1 & A2). split; [apply uf_adj_sym; exact A|auto].
    + intros a b A B C. split; [exact A|]. split; left; apply HD; [split; [exact (uf_adj_rng _ _ A)|left; exact B]|split; [exact (uf_adj_rng _ _ (uf_adj_sym _ _ A))|left; exact C]].
    + assert (Ns : forall q, In q ns <-> D q /\ adj p q).
      { intros q. rewrite I1. split.
        - intros [[]|(Dq & d & H1 & H2)]. split; [exact Dq|]. exact (near_adj p d q Rp H1 H2).
        - intros (Dq & Aq). right. split; [exact Dq|]. apply adj_near; [exact Aq|]. intros ->. exact (Np Dq). }
      intros a b. split; intros H.
      * induction H as [|u v H IH (A & A1 & A2)]; [apply kon_refl|]. destruct A1 as [A1|A1], A2 as [A2|A2].
        -- eapply kon_step; [exact IH|]. left. split; auto.
        -- subst v. eapply kon_step; [exact IH|]. right. right. split; [reflexivity|]. apply Ns. split; [exact A1|apply uf_adj_sym; exact A].
        -- subst u. eapply kon_step; [exact IH|]. right. left. split; [reflexivity|]. apply Ns. split; [exact A2|exact A].
        -- subst u v. exact IH.
      * revert H. apply kon_mono. intros u v [(A & A1 & A2)|[(-> & A)|(-> & A)]]; [split; auto| |]; apply Ns in A as (A1 & A2); (split; [|auto]); [exact A2|apply uf_adj_sym; exact A2].
Qed.
End scan.

Lemma uinv_level D f c c' : uinv D (among D) f c -> (forall a, D a -> c' <= px # a) -> (forall a, 0 <= a < N -> c' < px # a -> D a) -> uinv D (among D) f c'.
Proof using Hs Hlen Hodd Hsy Hlam Hty.
  intros [A1 A2 A3 A4 A5 A6 A7 A8 A9 A10 A11 A12] H1 H2. constructor; try assumption. intros a b A B C. split; [exact A|]. split; apply H2; [exact (uf_adj_rng _ _ A)|exact B|exact (uf_adj_rng _ _ (uf_adj_sym _ _ A))|exact C].
Qed.

Lemma uinv_D D D2 f c : uinv D (among D) f c -> (forall q, D q <-> D2 q) -> uinv D2 (among D2) f c.
Proof using Hs Hlen Hodd Hsy Hlam Hty.
  intros V H.
  assert (K : forall a b, kon (among D2) a b <-> kon (among D) a b) by (intros a b; split; apply kon_mono; intros u v (A & B & C); (split; [exact A|]); split; apply H; assumption).
  destruct V as [A1 A2 A3 A4 A5 A6 A7 A8 A9 A10 A11 A12]. constructor.
  - intros q Q. apply A1, H, Q.
  - intros q Q. apply A2, H, Q.
  - intros q Q. apply H in Q. destruct (A3 q Q) as [|(B1 & B2 & B3)]; [auto|right]. split; [exact B1|]. split; [apply H; exact B2|exact B3].
  - intros a b (A & B & C). auto.
  - intros a b (A & B & C). destruct (A5 a b) as (X & _); [split; [exact A|]; split; apply H; assumption|]. split; auto.
  - intros a b A B C. destruct (A6 a b A B C) as (X & Y & Z0). split; [exact X|]. split; apply H; assumption.
  - intros a Q. apply A7, H, Q.
  - intros q r Q Hr. apply K. apply A8; [apply H; exact Q|exact Hr].
  - intros q r Q Hr. apply A9; [apply H; exact Q|exact Hr].
  - intros r Q L L'. destruct (A10 r (proj2 (H r) Q) L L') as (B1 & l & B2 & B3 & B4). split; [intros q Hq; apply B1, K, Hq|]. exists l. split; [exact B2|]. split; [|exact B4]. intros q. split; intros X; [apply K, B3, X|apply B3, K, X].
  - intros r Q. apply A11, H, Q.
  - intros q r h Q. apply A12, H, Q.
Qed.

Lemma merge_ok fuel rest done par : (Z.to_nat N < fuel)%nat -> order px = done ++ rest -> Z.of_nat (length par) = N ->
  (forall c, (forall a, In a done -> c <= px # a) -> (forall a, 0 <= a < N -> c < px # a -> In a done) -> uinv (fun q => In q done) (among (fun q => In q done)) (fun q => par # q) c) ->
  exists par', uf_merge fuel s px lam (se_points (noCenter se)) rest par = Some (Some par') /\ length par' = length par /\
    forall c, (forall a, 0 <= a < N -> c <= px # a) -> uinv (fun q => 0 <= q < N) (among (fun q => 0 <= q < N)) (fun q => par' # q) c.
Proof using Hs Hlen Hodd Hsy Hlam Hty.
  intros HF. revert done par. induction rest as [|p rest IH]; intros done par E Lp V.
  { exists par. split; [reflexivity|]. split; [reflexivity|]. intros c Hc. rewrite app_nil_r in E.
    assert (Q : forall q, In q done <-> 0 <= q < N) by (intros q; rewrite <- E, <- Hlen; apply order_In).
    eapply uinv_D; [apply V|exact Q]; [intros a Ha; apply Hc, Q, Ha|intros a Ra _; apply Q, Ra]. }
  pose proof (order_p px done p rest E) as Rp. rewrite Hlen in Rp. pose proof (order_split px done p rest E) as HD. rewrite Hlen in HD.
  cbn [uf_merge]. rewrite wr_upd by lia. cbn [option_bind].
  destruct (pixel_step (fun q => In q done) p fuel Rp HD HF par Lp) as (par1 & E1 & L1 & V1).
  { apply V; [intros a Ha; apply HD in Ha as (_ & Ha); unfold before in Ha; lia|intros a Ra Ca; apply HD; split; [exact Ra|left; exact Ca]]. }
  rewrite E1. cbn [fuel_bind]. destruct (IH (done ++ [p]) par1) as (par2 & E2 & L2 & V2).
  - rewrite E, <- app_assoc. reflexivity.
  - lia.
  - intros c Hc1 Hc2. eapply (uinv_D (fun q => In q done \/ q = p)).
    + eapply uinv_level; [exact V1| |].
      * intros a Ha. apply Hc1. apply in_or_app. destruct Ha as [Ha| ->]; [left; exact Ha|right; left; reflexivity].
      * intros a Ra Ca. specialize (Hc2 a Ra Ca). apply in_app_iff in Hc2 as [Hc2|[-> |[]]]; auto.
    + intros q. rewrite in_app_iff. cbn [In]. split; [intros [H|H]; [auto|right; left; symmetry; exact H]|intros [H|[H|[]]]; [auto|right; symmetry; exact H]].
  - exists par2. split; [exact E2|]. split; [lia|exact V2].
Qed.

Lemma start_uinv par c : (forall a, 0 <= a < N -> c < px # a -> False) -> uinv (fun q => In q []) (among (fun q => In q [])) (fun q => par # q) c.
Proof using Hs Hlen Hodd Hsy Hlam Hty.
  intros H. constructor.
  - intros q [].
  - intros q [].
  - intros q [].
  - intros a b (_ & [] & _).
  - intros a b (_ & [] & _).
  - intros a b A B C. exfalso. exact (H a (uf_adj_rng _ _ A) B).
  - intros a [].
  - intros q r [].
  - intros q r [].
  - intros r [].
  - intros r [].
  - intros q r h [].
Qed.

(** ** The output *)
Lemma output_ok c par : uinv (fun q => 0 <= q < N) (among (fun q => 0 <= q < N)) (fun q => par # q) c -> Z.of_nat (length par) = N ->
  forall later rest st, order px = rest ++ later -> Z.of_nat (length (fst st)) = N -> Z.of_nat (length (snd st)) = N ->
  (forall q, 0 <= q < N -> ~ In q later -> (fst st) # q = par # q) -> (forall q r, In q later -> root (fun q => par # q) q r -> (fst st) # q = px # r /\ (snd st) # q = px # r) ->
  exists st', uf_output t px (rev rest) st = Some st' /\ Z.of_nat (length (snd st')) = N /\ forall q r, 0 <= q < N -> root (fun q => par # q) q r -> (snd st') # q = px # r.
Proof using Hs Hlen Hodd Hsy Hlam Hty.
  intros V Lp later rest. revert later. induction rest as [|p rest IH] using rev_ind; intros later (pa, out) E L1 L2 H1 H2; cbn [fst snd] in *.
  { exists (pa, out). split; [reflexivity|]. split; [exact L2|]. intros q r Rq Hr. apply (H2 q r); [|exact Hr]. cbn in E. rewrite <- E. apply order_In. rewrite Hlen. exact Rq. }
  rewrite <- app_assoc in E. cbn in E. pose proof (order_p px rest p later E) as Rp. rewrite Hlen in Rp. pose proof (fun q => order_later px rest p later q E) as HL. rewrite Hlen in HL.
  assert (Np : ~ In p later) by (intros H; apply HL in H as (_ & H); exact (before_irrefl px p H)).
  rewrite rev_app_distr. cbn [rev app]. unfold uf_output. cbn [fold_opt]. rewrite (rd_znth 0) by lia. cbn [option_bind]. rewrite (H1 p Rp Np).
  destruct (root_exists (fun q => 0 <= q < N) rk N (v_rk _ _ _ _ _ _ _ _ _ _ V) _ p (v_rank _ _ _ _ _ _ _ _ _ _ V) Rp) as (r & Hr).
  assert (exists v, (if par # p >=? 0 then rd pa (par # p) else rd px p) = Some v /\ v = px # r) as (v & Ev & Er).
  { destruct (v_rank _ _ _ _ _ _ _ _ _ _ V p Rp) as [L|(L & Df & Lt)].
    - replace (par # p >=? 0) with false by lia. rewrite (rd_znth 0) by lia. exists (px # p). split; [reflexivity|]. rewrite (root_fun _ p r p Hr (root_here _ p L)). reflexivity.
    - replace (par # p >=? 0) with true by lia. rewrite (rd_znth 0) by lia. exists (pa # (par # p)). split; [reflexivity|].
      assert (In (par # p) later) as Il by (apply HL; split; [exact Df|apply rank_inv; [rewrite Hlen; exact Df|exact Lt]]). apply (H2 _ r Il).
      inversion Hr; subst; [lia|assumption]. }
  assert (wrap t v = v) as Wv. { apply wrap_id. rewrite Er. apply Hty. apply (root_in _ rk N (v_rk _ _ _ _ _ _ _ _ _ _ V) _ p r (v_rank _ _ _ _ _ _ _ _ _ _ V) Rp Hr). }
  rewrite Ev. cbn [option_bind]. rewrite !wr_upd by lia. cbn [option_bind]. rewrite Wv.
  apply (IH (p :: later) (upd pa p v, upd out p v)); cbn [fst snd].
  - exact E.
  - rewrite upd_length. exact L1.
  - rewrite upd_length. exact L2.
  - intros q Rq Nq. rewrite znth_upd' by lia. destruct (q =? p) eqn:Q; [exfalso; apply Nq; left; lia|]. apply H1; [exact Rq|]. intros H. apply Nq. right. exact H.
  - intros q r' [<- |Hq] Hr'.
    + rewrite !znth_upd' by lia. rewrite Z.eqb_refl. rewrite (root_fun _ _ _ _ Hr' Hr). auto.
    + rewrite !znth_upd' by lia. destruct (q =? p) eqn:Q; [assert (q = p) as -> by lia; contradiction|]. apply H2; assumption.
Qed.

Lemma lower_bound (l : list Z) : exists c, forall a, In a l -> c <= a.
Proof using Hs Hlen Hodd Hsy Hlam Hty.
  induction l as [|x l (c & IH)]; [exists 0; intros ? []|]. exists (Z.min c x). intros a [<- |H]; [lia|]. specialize (IH a H). lia.
Qed.

Theorem areaOpening_offsets fuel out0 n : (Z.to_nat N < fuel)%nat -> sz out0 = s -> wf_img out0 -> to_off_t n = lam ->
  exists out, areaOpening fuel t se false (Img s px) n out0 = Some (Some (1, Img s out)) /\ Z.of_nat (length out) = N /\
    forall p, 0 <= p < N -> exists r, out # p = px # r /\ lk (px # r) p r /\ (big lam (lk (px # r) p) \/ forall q, kon adj p q -> px # r <= px # q) /\
      forall h, px # r < h <= px # p -> ~ big lam (lk h p).
Proof using Hs Hlen Hodd Hsy Hlam Hty.
  intros HF So Wo El. unfold areaOpening. rewrite same_size_true by (cbn; congruence). cbn [negb pixs sz].
  set (par0 := map (fun _ => 0) px). assert (L0 : Z.of_nat (length par0) = N) by (unfold par0; rewrite map_length; exact Hlen).
  destruct (merge_ok fuel (order px) [] par0 HF eq_refl L0) as (par & E1 & L1 & V).
  { intros c _ Hc. apply start_uinv. intros a Ra Ca. destruct (Hc a Ra Ca). }
  rewrite El. unfold order in E1. rewrite E1. cbn [fuel_bind]. rewrite order_back.
  destruct (lower_bound px) as (c & Hc). assert (Vc : uinv (fun q => 0 <= q < N) (among (fun q => 0 <= q < N)) (fun q => par # q) c).
  { apply V. intros a Ra. apply Hc. eapply rd_In. apply (rd_znth 0). lia. }
  destruct (output_ok c par Vc ltac:(lia) [] (order px) (par, map (fun _ => 0) (pixs out0))) as ((pa & out) & E2 & L2 & H2).
  - rewrite app_nil_r. reflexivity.
  - cbn. lia.
  - cbn. rewrite map_length. destruct Wo as (_ & ->). rewrite So. reflexivity.
  - reflexivity.
  - intros q r [].
  - rewrite E2. cbn [option_bind]. exists out. split; [rewrite So; reflexivity|]. split; [exact L2|]. intros p Rp.
    destruct (root_exists (fun q => 0 <= q < N) rk N (v_rk _ _ _ _ _ _ _ _ _ _ Vc) _ p (v_rank _ _ _ _ _ _ _ _ _ _ Vc) Rp) as (r & Hr).
    exists r. split; [apply (H2 p r Rp Hr)|]. pose proof (v_lk _ _ _ _ _ _ _ _ _ _ Vc p r Rp Hr) as Lk. split; [exact Lk|]. split; [|intros h; apply (v_not _ _ _ _ _ _ _ _ _ _ Vc p r h Rp Hr)].
    destruct (root_in _ rk N (v_rk _ _ _ _ _ _ _ _ _ _ Vc) _ p r (v_rank _ _ _ _ _ _ _ _ _ _ Vc) Rp Hr) as (Rr & _). pose proof (root_neg _ _ _ Hr) as Fr. cbv beta in Fr.
    destruct (Z_lt_dec (- par # r) lam) as [Q|Q].
    + right. intros q Hq. destruct (v_act _ _ _ _ _ _ _ _ _ _ Vc r Rr Fr Q) as (B1 & _).
      assert (kon (among (fun q => 0 <= q < N)) r q) as Hk.
      { eapply kon_trans; [apply (kon_sym _ p r (v_sym _ _ _ _ _ _ _ _ _ _ Vc)), (v_kon _ _ _ _ _ _ _ _ _ _ Vc p r Rp Hr)|]. revert Hq. apply kon_mono. intros u v A. split; [exact A|]. split; [exact (uf_adj_rng _ _ A)|exact (uf_adj_rng _ _ (uf_adj_sym _ _ A))]. }
      pose proof (kon_D px N lam adj rk N uf_adj_sym uf_adj_rng Hlam _ _ _ _ r q Vc Rr Hk) as Rq. destruct (lk_start px N adj _ _ _ (v_lk _ _ _ _ _ _ _ _ _ _ Vc q r Rq (B1 q Hk))) as (_ & Hle). exact Hle.
    + left. eapply big_mono; [exact uf_adj_sym|exact uf_adj_rng|exact Hlam| |apply (v_full _ _ _ _ _ _ _ _ _ _ Vc r Rr Fr); lia]. intros q Hq. eapply lk_trans; [exact Lk|exact Hq].
Qed.
End passes.
