(** Area openings by union-find on flat images: links, passes and result. *)
From Verif Require Export Proofs.AreaUnionProofs.

Local Notation "l # i" := (znth 0 l i) (at level 9).

(** ** The forest *)
Section climb.
Variables (D : Z -> Prop) (rk : Z -> Z) (R : Z).
Hypothesis Hrk : forall q, D q -> 0 <= rk q <= R.

Lemma find_root_ok fuel par x : ranked D rk (fun q => par # q) -> (forall q, D q -> 0 <= q < Z.of_nat (length par)) -> D x -> (Z.to_nat (R - rk x) < fuel)%nat ->
  exists r, find_root fuel par x = Some (Some r) /\ root (fun q => par # q) x r.
Proof using Hrk.
  revert x. induction fuel as [|fuel IH]; intros x K P Dx F; [lia|]. cbn [find_root]. rewrite (rd_znth 0) by (apply P; exact Dx). cbn [option_bind].
  destruct (K x Dx) as [L|(L & Df & Lt)].
  - destruct (par # x >=? 0) eqn:Q; [lia|]. exists x. split; [reflexivity|apply root_here; exact L].
  - replace (par # x >=? 0) with true by lia. pose proof (Hrk x Dx). pose proof (Hrk _ Df). destruct (IH (par # x) K P Df) as (r & E & Rr); [lia|]. exists r. split; [exact E|apply root_up; assumption].
Qed.

(** From [x] up to [r]. *)
Inductive ascends (f : Z -> Z) (r : Z) : Z -> Prop :=
| asc_here : ascends f r r
| asc_up x : x <> r -> 0 <= f x -> ascends f r (f x) -> ascends f r x.

Lemma root_ascends f g x r : root f x r -> (forall q, 0 <= f q -> g q = f q) -> ascends g r x.
Proof using Hrk.
  intros H G. induction H as [q L|q r L H IH]; [apply asc_here|]. destruct (Z.eq_dec q r) as [-> |N].
  - exfalso. pose proof (root_neg _ _ _ H). lia.
  - apply asc_up; [exact N|rewrite G; exact L|rewrite G by exact L; exact IH].
Qed.

Lemma compress_ok fuel par0 par root0 newroot x : ranked D rk (fun q => par0 # q) -> length par = length par0 -> (forall q, D q -> 0 <= q < Z.of_nat (length par0)) -> D x -> (Z.to_nat (R - rk x) < fuel)%nat ->
  squeezed D (fun q => par0 # q) (fun q => par # q) -> (forall y, D y -> rk x <= rk y -> par # y = par0 # y) ->
  ascends (fun q => par0 # q) root0 x -> root (fun q => par0 # q) x newroot ->
  exists par', compress fuel par root0 newroot x = Some (Some par') /\ length par' = length par0 /\ squeezed D (fun q => par0 # q) (fun q => par' # q).
Proof using Hrk.
  intros K. revert par x. induction fuel as [|fuel IH]; intros par x Ll P Dx F S Un As Rx; [lia|]. cbn [compress].
  inversion As as [|x' Nx Lx Ax]; subst; [rewrite Z.eqb_refl; exists par; auto|]. destruct (x =? root0) eqn:Q; [lia|].
  rewrite (rd_znth 0) by (rewrite Ll; apply P; exact Dx). cbn [option_bind]. rewrite wr_upd by (rewrite Ll; apply P; exact Dx). cbn [option_bind]. rewrite (Un x Dx) by lia.
  destruct (K x Dx) as [L|(_ & Df & Lt)]; [lia|]. pose proof (Hrk x Dx). pose proof (Hrk _ Df).
  assert (Rf : root (fun q => par0 # q) (par0 # x) newroot) by (inversion Rx; subst; [lia|assumption]).
  apply IH; [rewrite upd_length; exact Ll|exact P|exact Df|lia| | |exact Ax|exact Rf].
  - intros q. rewrite znth_upd' by (rewrite Ll; apply P; exact Dx). destruct (q =? x) eqn:Q'; [|apply S]. assert (q = x) as -> by lia. right. auto.
  - intros y Dy Ly. rewrite znth_upd' by (rewrite Ll; apply P; exact Dx). destruct (y =? x) eqn:Q'; [assert (y = x) as -> by lia; lia|]. apply Un; [exact Dy|lia].
Qed.
End climb.

(** ** The passes *)
Section passes.
Variables (se : strelt) (s : dims) (px : list Z) (lam : Z) (pts : list point).
Hypothesis Hs : wf_dims s.
Local Notation N := (dw s * dh s * dd s).
Hypothesis Hlen : Z.of_nat (length px) = N.
Hypothesis Hty : forall p, 0 <= p < dw s * dh s * dd s -> inty UINT8 (px # p).
Hypothesis Hodd : se_odd se = false.
Hypothesis Hsy : symmetric_se se.
Hypothesis Hlam : 1 <= lam.
Hypothesis Hpts : forall d, In d pts <-> In d (se_points (noCenter se)).
Local Notation adj := (covers se s).
Local Notation rk := (rank px).
Local Notation uinv := (uinv px N lam adj rk N).
Local Notation lk := (lk px N adj).
Local Notation near := (near s).
Local Notation among := (among se s).
Local Notation seen := (seen se s).
Local Notation adj_sym := (uf_adj_sym UINT8 se s px lam Hs Hlen Hty Hodd Hsy Hlam).
Local Notation adj_rng := (uf_adj_rng UINT8 se s px lam Hs Hlen Hty Hodd Hsy Hlam).
Local Notation near_adj := (near_adj UINT8 se s px lam Hs Hlen Hty Hodd Hsy Hlam).
Local Notation adj_near := (adj_near UINT8 se s px lam Hs Hlen Hty Hodd Hsy Hlam).

Lemma link_ok fuel D E par p n : uinv D E (fun q => par # q) (px # p) -> Z.of_nat (length par) = N -> D p -> par # p < 0 -> D n -> adj p n ->
  (forall q, D q -> q <> p -> rk q < rk p) -> (Z.to_nat N < fuel)%nat ->
  exists par', link1 fuel lam p par n = Some (Some par') /\ length par' = length par /\ par' # p < 0 /\ uinv D (join_edge E p n) (fun q => par' # q) (px # p).
Proof using Hs Hlen Hodd Hsy Hlam Hty.
  intros V Lp Dp Fp Dn Ad Lat F. pose proof (v_rk _ _ _ _ _ _ _ _ _ _ V) as Rk. pose proof (v_dom _ _ _ _ _ _ _ _ _ _ V) as Dom. pose proof (v_rank _ _ _ _ _ _ _ _ _ _ V) as Rd.
  destruct (find_root_ok D rk N Rk fuel par n Rd) as (r & E1 & R1); [rewrite Lp; exact Dom|exact Dn|specialize (Rk n Dn); lia|].
  assert (D r) as Dr by (apply (root_in D rk N Rk _ n r Rd Dn R1)).
  assert (P0 : forall q, D q -> 0 <= q) by (intros q Dq; apply (Dom q Dq)).
  pose proof (root_neg _ _ _ R1) as Fr. cbv beta in Fr. unfold link1. rewrite E1. cbn [fuel_bind].
  (* what is left once the roots are linked *)
  assert (Fin : forall par1 newroot, length par1 = length par -> par1 # p < 0 -> uinv D (join_edge E p n) (fun q => par1 # q) (px # p) -> (forall q, 0 <= par # q -> par1 # q = par # q) ->
    root (fun q => par1 # q) n newroot -> exists par', compress fuel par1 r newroot n = Some (Some par') /\ length par' = length par /\ par' # p < 0 /\ uinv D (join_edge E p n) (fun q => par' # q) (px # p)).
  { intros par1 newroot L1 F1 V1 Same Rn. pose proof (v_rank _ _ _ _ _ _ _ _ _ _ V1) as Rd1.
    destruct (compress_ok D rk N Rk fuel par1 par1 r newroot n Rd1 eq_refl) as (par2 & E2 & L2 & S2).
    - rewrite L1, Lp. exact Dom.
    - exact Dn.
    - specialize (Rk n Dn); lia.
    - intros q. left. reflexivity.
    - reflexivity.
    - exact (root_ascends D rk N Rk (fun q => par # q) (fun q => par1 # q) n r R1 Same).
    - exact Rn.
    - exists par2. split; [exact E2|]. split; [congruence|]. split; [rewrite (squeezed_neg D rk N Rk _ _ p S2 P0 Rd1 F1); exact F1|].
      exact (uinv_squeezed px N lam adj rk N adj_sym adj_rng Hlam D _ _ _ _ V1 S2). }
  unfold link_root. destruct (r =? p) eqn:Q.
  - cbn [option_bind]. apply Fin; [reflexivity|exact Fp| |reflexivity|exact R1].
    apply (union_same px N lam adj rk N adj_sym adj_rng Hlam D E _ p n r V Dp Fp Dn Ad R1). lia.
  - assert (r <> p) as Np by lia. rewrite !(rd_znth 0) by (rewrite Lp; apply Dom; assumption). cbn [option_bind]. destruct (- par # r <? lam) eqn:Cr.
    + rewrite !wr_upd by (rewrite ?upd_length, ?Lp; apply Dom; assumption). cbn [option_bind]. rewrite wr_upd by (rewrite ?upd_length, ?Lp; apply Dom; assumption). cbn [option_bind].
      set (par1 := upd (upd par p (par # p + par # r)) r p).
      assert (Ez : forall q, (fun q => if q =? r then p else if q =? p then par # p + par # r else par # q) q = par1 # q).
      { intros q. unfold par1. rewrite !znth_upd' by (rewrite ?upd_length, ?Lp; apply Dom; assumption). reflexivity. }
      assert (F1 : par1 # p < 0) by (rewrite <- Ez; rewrite Z.eqb_refl; destruct (p =? r) eqn:Q'; lia).
      assert (Same : forall q, 0 <= par # q -> par1 # q = par # q).
      { intros q Lq. rewrite <- Ez. destruct (q =? r) eqn:Q1; [assert (q = r) as -> by lia; lia|]. destruct (q =? p) eqn:Q2; [assert (q = p) as -> by lia; lia|reflexivity]. }
      apply Fin; [unfold par1; rewrite !upd_length; reflexivity|exact F1| |exact Same|].
      * eapply uinv_ext; [exact adj_sym|exact adj_rng|exact Hlam| |exact Ez].
        apply (union_merge px N lam adj rk N adj_sym adj_rng Hlam D E (fun q => par # q) p n r V Dp Fp Dn Ad R1 Np); [apply Lat; assumption|]. cbv beta. lia.
      * assert (G : forall x, root (fun q => par # q) x r -> root (fun q => par1 # q) x p).
        { intros x H. remember r as r' eqn:Er'. induction H as [q L|q r2 L H IH].
          - subst q. apply root_up; [rewrite <- Ez, Z.eqb_refl; apply P0; exact Dp|]. rewrite <- Ez, Z.eqb_refl. apply root_here. exact F1.
          - apply root_up; [rewrite Same by exact L; exact L|]. rewrite Same by exact L. apply IH; assumption. }
        apply G. exact R1.
    + rewrite wr_upd by (rewrite Lp; apply Dom; assumption). cbn [option_bind]. set (par1 := upd par p (- lam)).
      assert (Ez : forall q, (fun q => if q =? p then - lam else par # q) q = par1 # q) by (intros q; unfold par1; rewrite !znth_upd' by (rewrite Lp; apply Dom; assumption); reflexivity).
      assert (F1 : par1 # p < 0) by (rewrite <- Ez; rewrite Z.eqb_refl; lia).
      assert (Same : forall q, q <> p -> par1 # q = par # q) by (intros q Nq; rewrite <- Ez; destruct (q =? p) eqn:Q1; [lia|reflexivity]).
      apply Fin; [unfold par1; rewrite !upd_length; reflexivity|exact F1| |intros q Lq; apply Same; intros ->; lia|].
      * eapply uinv_ext; [exact adj_sym|exact adj_rng|exact Hlam| |exact Ez].
        apply (union_full px N lam adj rk N adj_sym adj_rng Hlam D E (fun q => par # q) p n r V Dp Fp Dn Ad R1 Np); cbv beta; lia.
      * clear - R1 Same Fp Np. induction R1 as [q L|q r2 L H IH].
        -- apply root_here. rewrite Same by exact Np. exact L.
        -- apply root_up; rewrite Same by (intros ->; lia); [exact L|]. apply IH; assumption.
Qed.

(** The four tests as a scan of a list of points. *)
Fixpoint lscan (fuel : nat) (pix : Z) (l : list point) (par : list Z) : option (option (list Z)) :=
  match l with
  | [] => Some (Some par)
  | d :: l =>
      let '(x, y, z) := uf_coords s pix in
      if negb (uf_window s (x + px_ d) (y + py_ d) (z + pz_ d)) then lscan fuel pix l par else
      let nbg := pix + uf_pixel s (px_ d) (py_ d) (pz_ d) in
      option_bind (rd px pix) (fun a =>
      option_bind (rd px nbg) (fun b =>
      if (a <? b) || ((a =? b) && (nbg <? pix)) then fuel_bind (link1 fuel lam pix par nbg) (lscan fuel pix l) else lscan fuel pix l par))
  end.
Fixpoint lmerge (fuel : nat) (todo : list Z) (par : list Z) : option (option (list Z)) :=
  match todo with
  | [] => Some (Some par)
  | pix :: todo => option_bind (wr par pix (-1)) (fun par => fuel_bind (lscan fuel pix pts par) (lmerge fuel todo))
  end.

Section scan.
Variables (D : Z -> Prop) (p : Z) (fuel : nat).
Hypothesis Rp : 0 <= p < N.
Hypothesis HD : forall q, D q <-> 0 <= q < N /\ before px q p.
Hypothesis HF : (Z.to_nat N < fuel)%nat.
Local Notation D' := (fun q => D q \/ q = p).

Lemma lscan_ok pts0 ns par : (forall d, In d pts0 -> In d (se_points (noCenter se))) -> Z.of_nat (length par) = N -> par # p < 0 -> (forall q, In q ns -> D q /\ adj p q) ->
  uinv D' (seen D p ns) (fun q => par # q) (px # p) ->
  exists par' ns', lscan fuel p pts0 par = Some (Some par') /\ length par' = length par /\ par' # p < 0 /\
    (forall q, In q ns' <-> In q ns \/ (D q /\ exists d, In d pts0 /\ near p d = Some q)) /\ uinv D' (seen D p ns') (fun q => par' # q) (px # p).
Proof using Hs Hlen Hodd Hsy Hlam Hty Hpts Rp HD HF.
  revert ns par. induction pts0 as [|d pts0 IH]; intros ns par Hp0 Lp Fp Hns V.
  { exists par, ns. split; [reflexivity|]. split; [reflexivity|]. split; [exact Fp|]. split; [|exact V]. intros q. split; [auto|intros [H|(_ & ? & [] & _)]; exact H]. }
  cbn [lscan]. pose proof (near_adj p d) as NA. unfold near in NA. destruct (uf_coords s p) as ((x, y), z) eqn:Ec.
  destruct (uf_window s (x + px_ d) (y + py_ d) (z + pz_ d)) eqn:Wd; cbn [negb].
  - set (nb := p + uf_pixel s (px_ d) (py_ d) (pz_ d)) in *. assert (adj p nb) as Ad by (apply NA; [exact Rp|apply Hp0; left; reflexivity|reflexivity]).
    assert (0 <= nb < N) as Rn by (apply (adj_rng nb p), adj_sym; exact Ad).
    assert (Nd : near p d = Some nb) by (unfold near; rewrite Ec, Wd; reflexivity).
    rewrite !(rd_znth 0) by lia. cbn [option_bind]. change ((px # p <? px # nb) || ((px # p =? px # nb) && (nb <? p))) with ((px # p <? px # nb) || ((px # p =? px # nb) && (nb <? p))).
    destruct ((px # p <? px # nb) || ((px # p =? px # nb) && (nb <? p))) eqn:Q.
    + assert (D nb) as Dn by (apply HD; split; [exact Rn|unfold before; lia]).
      destruct (link_ok fuel D' (seen D p ns) par p nb V Lp (or_intror eq_refl) Fp (or_introl Dn) Ad) as (par1 & E1 & L1 & F1 & V1); [|exact HF|].
      { intros q [Dq|Eq] Nq; [|contradiction]. apply HD in Dq as (Rq & Bq). apply rank_before; [rewrite Hlen; exact Rq|exact Bq]. }
      rewrite E1. cbn [fuel_bind]. destruct (IH (nb :: ns) par1) as (par2 & ns2 & E2 & L2 & F2 & I2 & V2).
      * intros d' Hd'. apply Hp0. right. exact Hd'.
      * lia.
      * exact F1.
      * intros q [<- |Hq]; [auto|apply Hns; exact Hq].
      * apply (uinv_edges px N lam adj rk N adj_sym adj_rng Hlam D' _ (seen D p (nb :: ns)) _ _ V1).
        -- intros a b [(A & A1 & A2)|[(-> & [<- |Hb])|(-> & [<- |Ha])]]; [auto|auto| |split; [apply adj_sym; exact Ad|auto]|].
           ++ split; [apply Hns; exact Hb|auto].
           ++ split; [apply adj_sym, Hns; exact Ha|left; apply Hns; exact Ha].
        -- intros a b [(A & A1 & A2)|[(A1 & A2)|(A1 & A2)]]; [left; split; [apply adj_sym; exact A|auto]|right; right; auto|right; left; auto].
        -- intros a b A B C. left. split; [exact A|]. split; apply HD; [split; [exact (adj_rng _ _ A)|left; exact B]|split; [exact (adj_rng _ _ (adj_sym _ _ A))|left; exact C]].
        -- intros a b. split; apply kon_mono; intros u v; unfold join_edge, seen; cbn [In].
           ++ intros [H|[(-> & [<- |H])|(-> & [<- |H])]]; auto 6.
           ++ intros [[H|[(-> & H)|(-> & H)]]|[(-> & ->)|(-> & ->)]]; auto 6.
      * exists par2, ns2. split; [exact E2|]. split; [lia|]. split; [exact F2|]. split; [|exact V2]. intros q. rewrite I2. cbn [In]. split.
        -- intros [[<- |H]|(H1 & d' & H2 & H3)]; [right; split; [exact Dn|exists d; auto]|auto|right; split; [exact H1|exists d'; auto]].
        -- intros [H|(H1 & d' & [<- |H2] & H3)]; [auto|left; left; congruence|right; split; [exact H1|exists d'; auto]].
    + destruct (IH ns par) as (par2 & ns2 & E2 & L2 & F2 & I2 & V2); [intros d' Hd'; apply Hp0; right; exact Hd'|assumption..|].
      exists par2, ns2. split; [exact E2|]. split; [exact L2|]. split; [exact F2|]. split; [|exact V2]. intros q. rewrite I2. split.
      * intros [H|(H1 & d' & H2 & H3)]; [auto|right; split; [exact H1|exists d'; split; [right; exact H2|exact H3]]].
      * intros [H|(H1 & d' & [<- |H2] & H3)]; [auto| |right; split; [exact H1|exists d'; auto]]. exfalso. rewrite Nd in H3. injection H3 as <-. apply HD in H1 as (_ & H1). unfold before in H1. lia.
  - assert (Nd : near p d = None) by (unfold near; rewrite Ec, Wd; reflexivity).
    destruct (IH ns par) as (par2 & ns2 & E2 & L2 & F2 & I2 & V2); [intros d' Hd'; apply Hp0; right; exact Hd'|assumption..|].
    exists par2, ns2. split; [exact E2|]. split; [exact L2|]. split; [exact F2|]. split; [|exact V2]. intros q. rewrite I2. split.
    * intros [H|(H1 & d' & H2 & H3)]; [auto|right; split; [exact H1|exists d'; split; [right; exact H2|exact H3]]].
    * intros [H|(H1 & d' & [<- |H2] & H3)]; [auto|congruence|right; split; [exact H1|exists d'; auto]].
Qed.

Lemma lpixel_step par : Z.of_nat (length par) = N -> uinv D (among D) (fun q => par # q) (px # p) ->
  exists par', lscan fuel p pts (upd par p (-1)) = Some (Some par') /\ length par' = length par /\
    uinv D' (among D') (fun q => par' # q) (px # p).
Proof using Hs Hlen Hodd Hsy Hlam Hty Hpts Rp HD HF.
  intros Lp V. assert (~ D p) as Np by (intros H; apply HD in H as (_ & H); exact (before_irrefl px p H)).
  assert (0 <= rk p <= N) as Rkp by (rewrite <- Hlen; apply rank_range).
  pose proof (uinv_make px N lam adj rk N adj_sym adj_rng Hlam D (among D) _ _ p V Np Rp Rkp eq_refl) as V0.
  destruct (lscan_ok pts [] (upd par p (-1))) as (par' & ns & E1 & L1 & F1 & I1 & V1).
  - intros d Hd. apply Hpts. exact Hd.
  - rewrite upd_length. exact Lp.
  - rewrite znth_upd' by lia. rewrite Z.eqb_refl. lia.
  - intros q [].
  - assert (Ez : forall q, (fun q => if q =? p then -1 else par # q) q = (upd par p (-1)) # q) by (intros q; rewrite znth_upd' by lia; reflexivity).
    eapply uinv_ext; [exact adj_sym|exact adj_rng|exact Hlam| |exact Ez].
    apply (uinv_edges px N lam adj rk N adj_sym adj_rng Hlam D' _ (seen D p []) _ _ V0).
    + intros a b [(A & A1 & A2)|[(_ & [])|(_ & [])]]. auto.
    + intros a b [(A & A1 & A2)|[(_ & [])|(_ & [])]]. left. split; [apply adj_sym; exact A|auto].
    + intros a b A B C. left. split; [exact A|]. split; apply HD; [split; [exact (adj_rng _ _ A)|left; exact B]|split; [exact (adj_rng _ _ (adj_sym _ _ A))|left; exact C]].
    + intros a b. split; apply kon_mono; intros u v; unfold seen; [intros [H|[(_ & [])|(_ & [])]]; exact H|auto].
  - exists par'. split; [exact E1|]. split; [rewrite L1, upd_length; reflexivity|].
    apply (uinv_edges px N lam adj rk N adj_sym adj_rng Hlam D' _ (among D') _ _ V1).
    + intros a b (A & A1 & A2). auto.
    + intros a b (A & A1 & A2). split; [apply adj_sym; exact A|auto].
    + intros a b A B C. split; [exact A|]. split; left; apply HD; [split; [exact (adj_rng _ _ A)|left; exact B]|split; [exact (adj_rng _ _ (adj_sym _ _ A))|left; exact C]].
    + assert (Ns : forall q, In q ns <-> D q /\ adj p q).
      { intros q. rewrite I1. split.
        - intros [[]|(Dq & d & H1 & H2)]. split; [exact Dq|]. apply Hpts in H1. exact (near_adj p d q Rp H1 H2).
        - intros (Dq & Aq). right. split; [exact Dq|]. destruct (adj_near p q Aq) as (d & H1 & H2); [intros ->; exact (Np Dq)|]. exists d. split; [apply Hpts; exact H1|exact H2]. }
      intros a b. split; intros H.
      * induction H as [|u v H IH (A & A1 & A2)]; [apply kon_refl|]. destruct A1 as [A1|A1], A2 as [A2|A2].
        -- eapply kon_step; [exact IH|]. left. split; auto.
        -- subst v. eapply kon_step; [exact IH|]. right. right. split; [reflexivity|]. apply Ns. split; [exact A1|apply adj_sym; exact A].
        -- subst u. eapply kon_step; [exact IH|]. right. left. split; [reflexivity|]. apply Ns. split; [exact A2|exact A].
        -- subst u v. exact IH.
      * revert H. apply kon_mono. intros u v [(A & A1 & A2)|[(-> & A)|(-> & A)]]; [split; auto| |]; apply Ns in A as (A1 & A2); (split; [|auto]); [exact A2|apply adj_sym; exact A2].
Qed.
End scan.

Lemma lmerge_ok fuel rest done par : (Z.to_nat N < fuel)%nat -> order px = done ++ rest -> Z.of_nat (length par) = N ->
  (forall c, (forall a, In a done -> c <= px # a) -> (forall a, 0 <= a < N -> c < px # a -> In a done) -> uinv (fun q => In q done) (among (fun q => In q done)) (fun q => par # q) c) ->
  exists par', lmerge fuel rest par = Some (Some par') /\ length par' = length par /\
    forall c, (forall a, 0 <= a < N -> c <= px # a) -> uinv (fun q => 0 <= q < N) (among (fun q => 0 <= q < N)) (fun q => par' # q) c.
Proof using Hs Hlen Hodd Hsy Hlam Hty Hpts.
  intros HF. revert done par. induction rest as [|p rest IH]; intros done par E Lp V.
  { exists par. split; [reflexivity|]. split; [reflexivity|]. intros c Hc. rewrite app_nil_r in E.
    assert (Q : forall q, In q done <-> 0 <= q < N) by (intros q; rewrite <- E, <- Hlen; apply order_In).
    eapply (uinv_D UINT8 se s px lam Hs Hlen Hty Hodd Hsy Hlam); [apply V|exact Q]; [intros a Ha; apply Hc, Q, Ha|intros a Ra _; apply Q, Ra]. }
  pose proof (order_p px done p rest E) as Rp. rewrite Hlen in Rp. pose proof (order_split px done p rest E) as HD. rewrite Hlen in HD.
  cbn [lmerge]. rewrite wr_upd by lia. cbn [option_bind].
  destruct (lpixel_step (fun q => In q done) p fuel Rp HD HF par Lp) as (par1 & E1 & L1 & V1).
  { apply V; [intros a Ha; apply HD in Ha as (_ & Ha); unfold before in Ha; lia|intros a Ra Ca; apply HD; split; [exact Ra|left; exact Ca]]. }
  rewrite E1. cbn [fuel_bind]. destruct (IH (done ++ [p]) par1) as (par2 & E2 & L2 & V2).
  - rewrite E, <- app_assoc. reflexivity.
  - lia.
  - intros c Hc1 Hc2. eapply (uinv_D UINT8 se s px lam Hs Hlen Hty Hodd Hsy Hlam (fun q => In q done \/ q = p)).
    + eapply (uinv_level UINT8 se s px lam Hs Hlen Hty Hodd Hsy Hlam); [exact V1| |].
      * intros a Ha. apply Hc1. apply in_or_app. destruct Ha as [Ha| ->]; [left; exact Ha|right; left; reflexivity].
      * intros a Ra Ca. specialize (Hc2 a Ra Ca). apply in_app_iff in Hc2 as [Hc2|[-> |[]]]; auto.
    + intros q. rewrite in_app_iff. cbn [In]. split; [intros [H|H]; [auto|right; left; symmetry; exact H]|intros [H|[H|[]]]; [auto|right; symmetry; exact H]].
  - exists par2. split; [exact E2|]. split; [lia|exact V2].
Qed.

(** ** The output *)
Lemma resolve_ok c par : uinv (fun q => 0 <= q < N) (among (fun q => 0 <= q < N)) (fun q => par # q) c -> Z.of_nat (length par) = N ->
  forall later rest pa, order px = rest ++ later -> Z.of_nat (length pa) = N ->
  (forall q, 0 <= q < N -> ~ In q later -> pa # q = par # q) -> (forall q r, In q later -> root (fun q => par # q) q r -> pa # q = px # r) ->
  exists out, fold_opt (resolve px) (rev rest) pa = Some out /\ Z.of_nat (length out) = N /\ forall q r, 0 <= q < N -> root (fun q => par # q) q r -> out # q = px # r.
Proof using Hs Hlen Hodd Hsy Hlam Hty.
  intros V Lp later rest. revert later. induction rest as [|p rest IH] using rev_ind; intros later pa E L1 H1 H2.
  { exists pa. split; [reflexivity|]. split; [exact L1|]. intros q r Rq Hr. apply (H2 q r); [|exact Hr]. cbn in E. rewrite <- E. apply order_In. rewrite Hlen. exact Rq. }
  rewrite <- app_assoc in E. cbn in E. pose proof (order_p px rest p later E) as Rp. rewrite Hlen in Rp. pose proof (fun q => order_later px rest p later q E) as HL. rewrite Hlen in HL.
  assert (Np : ~ In p later) by (intros H; apply HL in H as (_ & H); exact (before_irrefl px p H)).
  rewrite rev_app_distr. cbn [rev app]. cbn [fold_opt]. unfold resolve at 1. rewrite (rd_znth 0) by lia. cbn [option_bind]. rewrite (H1 p Rp Np).
  destruct (root_exists (fun q => 0 <= q < N) rk N (v_rk _ _ _ _ _ _ _ _ _ _ V) _ p (v_rank _ _ _ _ _ _ _ _ _ _ V) Rp) as (r & Hr).
  assert (exists v, (if par # p <? 0 then rd px p else rd pa (par # p)) = Some v /\ v = px # r) as (v & Ev & Er).
  { destruct (v_rank _ _ _ _ _ _ _ _ _ _ V p Rp) as [L|(L & Df & Lt)].
    - replace (par # p <? 0) with true by lia. rewrite (rd_znth 0) by lia. exists (px # p). split; [reflexivity|]. rewrite (root_fun _ p r p Hr (root_here _ p L)). reflexivity.
    - replace (par # p <? 0) with false by lia. rewrite (rd_znth 0) by lia. exists (pa # (par # p)). split; [reflexivity|].
      assert (In (par # p) later) as Il by (apply HL; split; [exact Df|apply rank_inv; [rewrite Hlen; exact Df|exact Lt]]). apply (H2 _ r Il).
      inversion Hr; subst; [lia|assumption]. }
  rewrite Ev. cbn [option_bind]. rewrite !wr_upd by lia. cbn [option_bind].
  apply (IH (p :: later) (upd pa p v)).
  - exact E.
  - rewrite upd_length. exact L1.
  - intros q Rq Nq. rewrite znth_upd' by lia. destruct (q =? p) eqn:Q; [exfalso; apply Nq; left; lia|]. apply H1; [exact Rq|]. intros H. apply Nq. right. exact H.
  - intros q r' [<- |Hq] Hr'.
    + rewrite !znth_upd' by lia. rewrite Z.eqb_refl. rewrite (root_fun _ _ _ _ Hr' Hr). auto.
    + rewrite !znth_upd' by lia. destruct (q =? p) eqn:Q; [assert (q = p) as -> by lia; contradiction|]. apply H2; assumption.
Qed.
End passes.
