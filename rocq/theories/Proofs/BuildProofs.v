(** The flooding loop of the reconstructions gives every pixel the best level that flows to it. *)
From Verif Require Export Proofs.NeighborFacts Proofs.QueueProofs.

Lemma wr_upd {A} (l : list A) i v : 0 <= i < Z.of_nat (length l) -> wr l i v = Some (upd l i v).
Proof. intros H. unfold upd. destruct (wr_Some l i v H) as [l' E]. rewrite E. reflexivity. Qed.

Lemma znth_upd' {A} (d : A) l i v j : 0 <= i < Z.of_nat (length l) -> znth d (upd l i v) j = if j =? i then v else znth d l j.
Proof.
  intros H. unfold znth. rewrite rd_upd, (Z.eqb_sym j i). destruct (i =? j) eqn:E; [|reflexivity].
  replace (_ && _) with true by lia. reflexivity.
Qed.

(** Number of elements of [l] equal to [c]. *)
Definition count (c : Z) (l : list Z) : nat := length (filter (fun v => v =? c) l).

Lemma count_upd_nat c l n v : (n < length l)%nat -> nth n l 0 = c -> v <> c -> count c l = S (count c (upd_nat l n v)).
Proof.
  revert n; induction l as [|x l IH]; intros [|n] Hn E Hv; cbn [length] in Hn; try lia; cbn [nth] in E; unfold count; cbn [upd_nat filter].
  - replace (x =? c) with true by lia. replace (v =? c) with false by lia. reflexivity.
  - pose proof (IH n ltac:(lia) E Hv) as H. unfold count in H. destruct (x =? c); cbn [length]; lia.
Qed.

Lemma count_upd_nat' c l n v : (n < length l)%nat -> nth n l 0 <> c -> v <> c -> count c (upd_nat l n v) = count c l.
Proof.
  revert n; induction l as [|x l IH]; intros [|n] Hn E Hv; cbn [length] in Hn; try lia; cbn [nth] in E; unfold count; cbn [upd_nat filter].
  - replace (x =? c) with false by lia. replace (v =? c) with false by lia. reflexivity.
  - pose proof (IH n ltac:(lia) E Hv) as H. unfold count in H. destruct (x =? c); cbn [length]; lia.
Qed.

Lemma upd_upd_nat {A} (l : list A) i v : 0 <= i < Z.of_nat (length l) -> upd l i v = upd_nat l (Z.to_nat i) v.
Proof. intros H. unfold upd. rewrite wr_eq by lia. reflexivity. Qed.

Lemma znth_nth l i : 0 <= i -> znth 0 l i = nth (Z.to_nat i) l 0.
Proof.
  intros H. unfold znth, rd. replace (0 <=? i) with true by lia.
  destruct (nth_error l (Z.to_nat i)) eqn:E; [symmetry; apply nth_error_nth; exact E|]. symmetry. apply nth_overflow. apply nth_error_None. exact E.
Qed.

Lemma count_upd c l i v : 0 <= i < Z.of_nat (length l) -> znth 0 l i = c -> v <> c -> count c l = S (count c (upd l i v)).
Proof. intros H E Hv. rewrite upd_upd_nat by lia. rewrite znth_nth in E by lia. apply count_upd_nat; auto; lia. Qed.

Lemma count_upd' c l i v : 0 <= i < Z.of_nat (length l) -> znth 0 l i <> c -> v <> c -> count c (upd l i v) = count c l.
Proof. intros H E Hv. rewrite upd_upd_nat by lia. rewrite znth_nth in E by lia. apply count_upd_nat'; auto; lia. Qed.

Lemma count_le c l : (count c l <= length l)%nat.
Proof. unfold count. induction l as [|x l IH]; cbn; [lia|]. destruct (x =? c); cbn; lia. Qed.

Section Flood.
Context (t : ity) (rev : bool) (oper : Z -> Z -> Z) (se : strelt) (s : dims) (M I0 : list Z).
Notation N := (dw s * dh s * dd s).
Definition key (v : Z) : Z := if rev then - v else v.
Context (Ht : t = UINT8 \/ t = UINT16) (Hs : int_sized s) (Hpts : int_points se) (Hpl : planar se s).
Context (Hop : forall a b, key (oper a b) = Z.max (key a) (key b)).
Context (LM : Z.of_nat (length M) = N) (L0 : Z.of_nat (length I0) = N) (TM : Forall (inty t) M) (T0 : Forall (inty t) I0).

Notation "l # i" := (znth 0 l i) (at level 2).

Lemma key_inj a b : key a = key b -> a = b.
Proof. unfold key. destruct rev; lia. Qed.

Lemma oper_typed a b : inty t a -> inty t b -> inty t (oper a b).
Proof.
  intros A B. assert (oper a b = a \/ oper a b = b) as [-> | ->]; auto.
  destruct (Z.max_spec (key a) (key b)) as [[_ E]|[_ E]]; [right|left]; apply key_inj; rewrite Hop; exact E.
Qed.

Lemma typed_at l i : Forall (inty t) l -> 0 <= i < Z.of_nat (length l) -> inty t (l # i).
Proof. intros H Hi. rewrite Forall_forall in H. apply H. apply (rd_In l i). apply rd_znth. exact Hi. Qed.

Lemma typed_upd l i v : Forall (inty t) l -> inty t v -> Forall (inty t) (upd l i v).
Proof.
  intros H Hv. rewrite Forall_forall in *. intros x Hx. apply In_rd in Hx as (j & Hj & E). rewrite rd_upd in E.
  destruct (_ && _); [injection E as <-; exact Hv|]. apply H. eapply rd_In; eauto.
Qed.

Definition fnb (cur : Z) (st : bstate) (nb : Z) : option bstate :=
  option_bind (rd (bs_stat st) nb) (fun nbStat =>
        if nbStat =? HQ_CANDIDATE then
          option_bind (rd (bs_in st) cur) (fun a =>
          option_bind (rd M nb) (fun b =>
          option_bind (wr (bs_in st) nb (oper a b)) (fun px =>
          option_bind (wr (bs_stat st) nb HQ_QUEUED) (fun stat =>
          option_bind (rd px nb) (fun v =>
          option_bind (hq_push t rev (bs_q st) v nb) (fun q => Some (BS px stat q)))))))
        else Some st).

Record st_ok (st : bstate) (r : list (Z * Z)) : Prop := {
  so_in : Z.of_nat (length (bs_in st)) = N; so_stat : Z.of_nat (length (bs_stat st)) = N;
  so_typed : Forall (inty t) (bs_in st); so_q : hq_ok t rev (bs_q st) r;
  so_len : Z.of_nat (length r) + Z.of_nat (count HQ_CANDIDATE (bs_stat st)) <= 2 * N }.

Lemma scan_ok cur l : 0 <= cur < N -> (forall nb, In nb l -> 0 <= nb < N) ->
  forall st r, st_ok st r -> (bs_stat st) # cur <> HQ_CANDIDATE ->
  exists st' r', fold_opt (fnb cur) l st = Some st' /\ st_ok st' r' /\
    (forall p, 0 <= p < N -> In p l -> (bs_stat st) # p = HQ_CANDIDATE ->
       (bs_in st') # p = oper ((bs_in st) # cur) (M # p) /\ (bs_stat st') # p = HQ_QUEUED) /\
    (forall p, 0 <= p < N -> ~ (In p l /\ (bs_stat st) # p = HQ_CANDIDATE) ->
       (bs_in st') # p = (bs_in st) # p /\ (bs_stat st') # p = (bs_stat st) # p) /\
    (forall e, In e r' <-> In e r \/ exists p, In p l /\ (bs_stat st) # p = HQ_CANDIDATE /\ e = ((bs_in st') # p, p)) /\
    (length r' + count HQ_CANDIDATE (bs_stat st') = length r + count HQ_CANDIDATE (bs_stat st))%nat.
Proof.
  intros Hc. induction l as [|nb l IH]; intros Hl st r OK Hcur.
  - exists st, r. cbn [fold_opt]. split; [reflexivity|]. split; [exact OK|]. split; [intros p _ []|].
    split; [intros; auto|]. split; [|reflexivity]. intros e. split; [auto|]. intros [H|(p & [] & _)]; exact H.
  - assert (Hnb : 0 <= nb < N) by (apply Hl; left; reflexivity).
    assert (Hl' : forall nb, In nb l -> 0 <= nb < N) by (intros; apply Hl; right; auto).
    pose proof OK as [A1 A2 A3 A4 A5]. pose proof Hs as (_ & _ & _ & Hbig).
    cbn [fold_opt]. unfold fnb at 1. rewrite (rd_znth 0) by lia. cbn [option_bind].
    destruct ((bs_stat st) # nb =? HQ_CANDIDATE) eqn:Ec.
    + apply Z.eqb_eq in Ec.
      assert (nb <> cur) by (intros ->; contradiction).
      rewrite (rd_znth 0) by lia. cbn [option_bind]. rewrite (rd_znth 0) by lia. cbn [option_bind].
      rewrite wr_upd by lia. cbn [option_bind]. rewrite wr_upd by lia. cbn [option_bind].
      set (v := oper (bs_in st) # cur M # nb). set (px := upd (bs_in st) nb v). set (stat := upd (bs_stat st) nb HQ_QUEUED).
      assert (Lp : Z.of_nat (length px) = N) by (unfold px; rewrite upd_length; lia).
      assert (Ls : Z.of_nat (length stat) = N) by (unfold stat; rewrite upd_length; lia).
      assert (Pp : forall j, px # j = if j =? nb then v else (bs_in st) # j) by (intros; unfold px; apply znth_upd'; lia).
      assert (Ps : forall j, stat # j = if j =? nb then HQ_QUEUED else (bs_stat st) # j) by (intros; unfold stat; apply znth_upd'; lia).
      assert (Tv : inty t v) by (apply oper_typed; apply typed_at; auto; lia).
      rewrite (rd_znth 0) by lia. cbn [option_bind]. rewrite Pp, Z.eqb_refl.
      pose proof (count_upd HQ_CANDIDATE (bs_stat st) nb HQ_QUEUED ltac:(lia) Ec ltac:(discriminate)) as Cc. fold stat in Cc.
      pose proof (count_le HQ_CANDIDATE (bs_stat st)) as Cl.
      destruct (hq_push_ok t rev (bs_q st) r v nb A4 Tv ltac:(lia)) as (q' & Eq & Qok). rewrite Eq. cbn [option_bind].
      destruct (IH Hl' (BS px stat q') (r ++ [(v, nb)])) as (st' & r' & B1 & B2 & B3 & B4 & B5 & B6).
      { constructor; cbn [bs_in bs_stat bs_q]; auto.
        - apply typed_upd; auto.
        - rewrite app_length. cbn [length]. lia. }
      { cbn [bs_stat]. rewrite Ps. replace (cur =? nb) with false by lia. exact Hcur. }
      cbn [bs_in bs_stat bs_q] in *. exists st', r'. split; [exact B1|]. split; [exact B2|].
      assert (Enb : (bs_in st') # nb = v /\ (bs_stat st') # nb = HQ_QUEUED).
      { destruct (B4 nb Hnb) as [E1 E2]; [rewrite Ps, Z.eqb_refl; intros [_ H0]; discriminate|]. rewrite E1, E2, Pp, Ps, Z.eqb_refl. auto. }
      split; [|split; [|split]].
      * intros p Hp Hin Hcand. destruct (Z.eq_dec p nb) as [->|Hne]; [exact Enb|].
        destruct Hin as [->|Hin]; [congruence|]. destruct (B3 p Hp Hin) as [E1 E2].
        { rewrite Ps. replace (p =? nb) with false by lia. exact Hcand. }
        rewrite Pp in E1. replace (cur =? nb) with false in E1 by lia. auto.
      * intros p Hp Hn. destruct (Z.eq_dec p nb) as [->|Hne]; [exfalso; apply Hn; split; [left; reflexivity|exact Ec]|].
        destruct (B4 p Hp) as [E1 E2].
        { rewrite Ps. replace (p =? nb) with false by lia. intros [H1 H2]. apply Hn. split; [right; exact H1|exact H2]. }
        rewrite E1, E2, Pp, Ps. replace (p =? nb) with false by lia. auto.
      * intros e. rewrite B5, in_app_iff. split.
        -- intros [[H1|[<-|[]]]|(p & H1 & H2 & H3)].
           ++ left; exact H1.
           ++ right. exists nb. split; [left; reflexivity|]. split; [exact Ec|]. destruct Enb as [-> _]. reflexivity.
           ++ right. exists p. rewrite Ps in H2. destruct (p =? nb) eqn:E; [discriminate|]. split; [right; exact H1|]. auto.
        -- intros [H1|(p & H1 & H2 & H3)]; [left; left; exact H1|].
           destruct (Z.eq_dec p nb) as [->|Hne].
           ++ left. right. left. rewrite H3. destruct Enb as [-> _]. reflexivity.
           ++ right. exists p. destruct H1 as [->|H1]; [congruence|]. split; [exact H1|]. rewrite Ps. replace (p =? nb) with false by lia. auto.
      * rewrite B6, app_length. cbn [length]. lia.
    + assert (Ec' : (bs_stat st) # nb <> HQ_CANDIDATE) by lia.
      destruct (IH Hl' st r OK Hcur) as (st' & r' & B1 & B2 & B3 & B4 & B5 & B6).
      exists st', r'. split; [exact B1|]. split; [exact B2|]. split; [|split; [|split; [|exact B6]]].
      * intros p Hp [->|Hin] Hcand; [contradiction|auto].
      * intros p Hp Hn. apply B4; [exact Hp|]. intros [H1 H2]. apply Hn. split; [right; exact H1|exact H2].
      * intros e. rewrite B5. split; (intros [H1|(p & H1 & H2 & H3)]; [left; exact H1|right]).
        -- exists p. split; [right; exact H1|auto].
        -- destruct H1 as [->|H1]; [contradiction|]. exists p. auto.
Qed.

(** The levels that flow, as keys, over offsets. *)
Inductive reach : Z -> Z -> Prop :=
| reach0 p : 0 <= p < N -> reach p (key (I0 # p))
| reach_step p nb v : reach p v -> covers se s nb p -> reach nb (Z.max v (key (M # nb))).

(** [unp v]: pixels of value [v] were not pushed at the start; no key is greater. *)
Context (unp : Z -> bool) (Hunp : forall v w, unp v = true -> inty t w -> key w <= key v).

Record inv (c : Z) (st : bstate) (r : list (Z * Z)) : Prop := {
  i_st : st_ok st r;
  i_tok : forall v p, In (v, p) r -> 0 <= p < N /\ c <= key v;
  i_cand : forall p, 0 <= p < N -> (bs_stat st) # p = HQ_CANDIDATE -> (bs_in st) # p = I0 # p;
  i_lo : forall p, 0 <= p < N -> key (M # p) <= key ((bs_in st) # p);
  i_hi : forall p, 0 <= p < N -> key ((bs_in st) # p) <= key (I0 # p);
  i_reach : forall p, 0 <= p < N -> reach p (key ((bs_in st) # p));
  i_final : forall p nb, 0 <= p < N -> covers se s nb p -> (bs_stat st) # p = HQ_FINAL ->
     key ((bs_in st) # nb) <= Z.max (key ((bs_in st) # p)) (key (M # nb));
  i_has : forall p, 0 <= p < N -> (bs_stat st) # p <> HQ_FINAL ->
     In ((bs_in st) # p, p) r \/ ((bs_stat st) # p = HQ_CANDIDATE /\ unp (I0 # p) = true);
  i_key : forall v p, In (v, p) r -> (bs_stat st) # p <> HQ_FINAL -> key ((bs_in st) # p) <= key v;
  i_done : forall v p nb, In (v, p) r -> (bs_stat st) # p = HQ_FINAL -> covers se s nb p -> (bs_stat st) # nb <> HQ_CANDIDATE;
  i_c : forall p, 0 <= p < N -> (bs_stat st) # p <> HQ_CANDIDATE -> key ((bs_in st) # p) <= Z.max c (key (M # p)) }.

Lemma covers_range nb p : covers se s nb p -> 0 <= nb < N /\ 0 <= p < N.
Proof. intros (x & y & z & x' & y' & z' & A & B & -> & -> & _). split; apply inside_range; assumption. Qed.

Lemma served_min v p r r' : served rev r (v, p) r' -> In (v, p) r /\ (forall e, In e r' -> In e r) /\
  (forall w q, In (w, q) r -> key v <= key w) /\ (forall e, In e r -> e = (v, p) \/ In e r').
Proof.
  intros (a & b & -> & -> & H1 & H2). split; [apply in_or_app; right; left; reflexivity|]. split; [|split].
  - intros e He. apply in_app_iff in He as [He|He]; apply in_or_app; [left|right; right]; exact He.
  - intros w q Hi. apply in_app_iff in Hi as [Hi|[Hi|Hi]].
    + specialize (H1 _ Hi). unfold better, key in *. cbn [fst] in H1. destruct rev; lia.
    + injection Hi as -> _. lia.
    + specialize (H2 _ Hi). unfold better, key in *. cbn [fst] in H2. destruct rev; lia.
  - intros e He. apply in_app_iff in He as [He|[He|He]]; [right|left|right]; try (apply in_or_app); auto.
Qed.

Notation loop := (fun fuel => build_loop fuel t rev oper se s false M).

Lemma loop_ok fuel : forall c st r, inv c st r -> (length r + count HQ_CANDIDATE (bs_stat st) <= fuel)%nat ->
  exists c' st', loop fuel st = Some (Some st') /\ inv c' st' [].
Proof.
  induction fuel as [|fuel IH]; intros c st r IV Hf; cbn [build_loop]; unfold hq_isEmpty; rewrite (ho_size _ _ _ _ (so_q _ _ (i_st _ _ _ IV))).
  - destruct r; [|cbn in Hf; lia]. cbn. eauto.
  - destruct r as [|e0 r0] eqn:Er; [cbn; eauto|]. rewrite <- Er in *. replace (Z.of_nat (length r) =? 0) with false by (rewrite Er; cbn; lia).
    destruct IV as [OK i_tok0 i_cand0 i_lo0 i_hi0 i_reach0 i_final0 i_has0 i_key0 i_done0 i_c0].
    pose proof OK as [A1 A2 A3 A4 A5].
    destruct (hq_pop_ok _ _ _ _ A4) as (v & cur & q' & r' & Ep & Qok & Sv & Ln); [rewrite Er; discriminate|].
    rewrite Ep. cbn [option_bind]. destruct (served_min _ _ _ _ Sv) as (M1 & M2 & M3 & M4).
    destruct (i_tok0 _ _ M1) as [Hcur Hcv].
    rewrite wr_upd by lia. cbn [option_bind].
    destruct (nbs_spec se s cur Hs Hpts Hpl Hcur) as (xyz & Exyz & NB1 & NB2). rewrite Exyz. cbn [option_bind].
    set (stat := upd (bs_stat st) cur HQ_FINAL).
    assert (Ls : Z.of_nat (length stat) = N) by (unfold stat; rewrite upd_length; lia).
    assert (Ps : forall j, stat # j = if j =? cur then HQ_FINAL else (bs_stat st) # j) by (intros; unfold stat; apply znth_upd'; lia).
    assert (Cs : (count HQ_CANDIDATE stat <= count HQ_CANDIDATE (bs_stat st))%nat).
    { destruct (Z.eq_dec ((bs_stat st) # cur) HQ_CANDIDATE) as [E|E].
      - pose proof (count_upd HQ_CANDIDATE (bs_stat st) cur HQ_FINAL ltac:(lia) E ltac:(discriminate)). fold stat in H. lia.
      - pose proof (count_upd' HQ_CANDIDATE (bs_stat st) cur HQ_FINAL ltac:(lia) E ltac:(discriminate)). fold stat in H. lia. }
    assert (OK1 : st_ok (BS (bs_in st) stat q') r').
    { constructor; cbn [bs_in bs_stat bs_q]; auto. lia. }
    destruct (scan_ok cur (nbs se s cur xyz) Hcur ltac:(intros nb Hnb; apply (NB1 nb Hnb)) (BS (bs_in st) stat q') r' OK1)
      as (st' & r'' & F1 & F2 & F3 & F4 & F5 & F6).
    { cbn [bs_stat]. rewrite Ps, Z.eqb_refl. discriminate. }
    cbn [bs_in bs_stat bs_q] in *.
    rewrite (scan_nbs (fnb cur) se s cur xyz) by (intros; reflexivity). rewrite F1. cbn [option_bind].
    (* the popped key *)
    assert (Kcur : (bs_stat st) # cur <> HQ_FINAL -> key ((bs_in st) # cur) = key v).
    { intros Hn. pose proof (i_key0 _ _ M1 Hn). destruct (i_has0 _ Hcur Hn) as [Hin|[Hc1 Hc2]].
      - pose proof (M3 _ _ Hin). lia.
      - rewrite (i_cand0 _ Hcur Hc1) in *. pose proof (Hunp _ v Hc2 (ho_ty _ _ _ _ A4 _ M1)). lia. }
    assert (Kle : key ((bs_in st) # cur) <= Z.max (key v) (key (M # cur))).
    { destruct (Z.eq_dec ((bs_stat st) # cur) HQ_FINAL) as [E|E]; [|rewrite (Kcur E); lia].
      pose proof (i_c0 cur Hcur). rewrite E in H. specialize (H ltac:(discriminate)). lia. }
    assert (Cst : forall p, 0 <= p < N -> stat # p = HQ_CANDIDATE -> p <> cur /\ (bs_stat st) # p = HQ_CANDIDATE).
    { intros p Hp E. rewrite Ps in E. destruct (p =? cur) eqn:Q; [discriminate|]. split; [lia|exact E]. }
    (* dichotomy for the pixels after the scan *)
    assert (New : forall p, 0 <= p < N -> In p (nbs se s cur xyz) -> stat # p = HQ_CANDIDATE ->
       (bs_stat st) # cur <> HQ_FINAL /\ key ((bs_in st') # p) = Z.max (key v) (key (M # p)) /\ (bs_stat st') # p = HQ_QUEUED /\ covers se s p cur).
    { intros p Hp Hin Hcd. destruct (F3 p Hp Hin Hcd) as [E1 E2]. destruct (NB1 p Hin) as [_ Cv]. destruct (Cst p Hp Hcd) as [N1 N2].
      assert ((bs_stat st) # cur <> HQ_FINAL) as NF by (intros E; apply (i_done0 _ _ p M1 E Cv N2)).
      rewrite E1, Hop, (Kcur NF). auto. }
    assert (D : forall p, 0 <= p < N -> (In p (nbs se s cur xyz) /\ stat # p = HQ_CANDIDATE) \/
       ((~ (In p (nbs se s cur xyz) /\ stat # p = HQ_CANDIDATE)) /\ (bs_in st') # p = (bs_in st) # p /\ (bs_stat st') # p = stat # p)).
    { intros p Hp. destruct (in_dec Z.eq_dec p (nbs se s cur xyz)) as [Hin|Hin]; [destruct (Z.eq_dec (stat # p) HQ_CANDIDATE) as [E|E]; [left; auto|]|];
      right; (split; [intros [? ?]; contradiction|apply F4; [exact Hp|intros [? ?]; contradiction]]). }
    assert (Dec : forall p, 0 <= p < N -> key ((bs_in st') # p) <= key ((bs_in st) # p)).
    { intros p Hp. destruct (D p Hp) as [[H1 H2]|(_ & -> & _)]; [|lia]. destruct (New p Hp H1 H2) as (NF & -> & _).
      destruct (Cst p Hp H2) as [_ Cd]. pose proof (i_lo0 p Hp). destruct (i_has0 p Hp) as [Hin|[_ Un]]; [rewrite Cd; discriminate| |].
      - pose proof (M3 _ _ Hin). lia.
      - pose proof (Hunp _ v Un (ho_ty _ _ _ _ A4 _ M1)). rewrite (i_cand0 p Hp Cd) in *. lia. }
    assert (Same : forall p, 0 <= p < N -> (bs_stat st') # p = HQ_FINAL -> stat # p = HQ_FINAL /\ (bs_in st') # p = (bs_in st) # p).
    { intros p Hp E. destruct (D p Hp) as [[H1 H2]|(_ & E1 & E2)]; [|rewrite E2 in E; auto].
      destruct (New p Hp H1 H2) as (_ & _ & E2 & _). rewrite E2 in E; discriminate. }
    assert (Ncur : (bs_in st') # cur = (bs_in st) # cur /\ (bs_stat st') # cur = HQ_FINAL).
    { destruct (D cur Hcur) as [[_ H2]|(_ & -> & ->)]; rewrite Ps, Z.eqb_refl in *; [discriminate|auto]. }
    assert (IV' : inv (key v) st' r'').
    { constructor.
      - exact F2.
      - intros w p Hin. apply F5 in Hin as [Hin|(p' & P1 & P2 & P3)].
        + destruct (i_tok0 _ _ (M2 _ Hin)) as [H1 _]. split; [exact H1|]. apply (M3 w p). apply M2. exact Hin.
        + injection P3 as -> ->. pose proof (proj1 (NB1 _ P1)) as Hp. destruct (New _ Hp P1 P2) as (_ & -> & _). split; [exact Hp|apply Z.le_max_l].
      - intros p Hp E. destruct (D p Hp) as [[H1 H2]|(_ & E1 & E2)].
        + destruct (New p Hp H1 H2) as (_ & _ & E2 & _). rewrite E2 in E; discriminate.
        + rewrite E1. rewrite E2 in E. apply i_cand0; [exact Hp|]. apply (Cst p Hp E).
      - intros p Hp. destruct (D p Hp) as [[H1 H2]|(_ & -> & _)]; [|auto]. destruct (New p Hp H1 H2) as (_ & -> & _). apply Z.le_max_r.
      - intros p Hp. exact (Z.le_trans _ _ _ (Dec p Hp) (i_hi0 p Hp)).
      - intros p Hp. destruct (D p Hp) as [[H1 H2]|(_ & -> & _)]; [|auto]. destruct (New p Hp H1 H2) as (NF & -> & _ & Cv).
        rewrite <- (Kcur NF). apply (reach_step cur); auto.
      - intros p nb Hp Cv E. destruct (covers_range _ _ Cv) as [Hnb _]. destruct (Same p Hp E) as [E1 E2]. rewrite E2.
        rewrite Ps in E1. destruct (p =? cur) eqn:Q.
        + apply Z.eqb_eq in Q; subst p. clear E1.
          destruct (Z.eq_dec ((bs_stat st) # cur) HQ_FINAL) as [Fc|Fc].
          { exact (Z.le_trans _ _ _ (Dec nb Hnb) (i_final0 cur nb Hcur Cv Fc)). }
          destruct (NB2 nb Cv) as [Enb|Hin].
          { rewrite Enb. rewrite E2. apply Z.le_max_l. }
          rewrite (Kcur Fc).
          destruct (D nb Hnb) as [[H1 H2]|(H1 & E3 & _)].
          * destruct (New nb Hnb H1 H2) as (_ & -> & _). apply Z.le_refl.
          * rewrite E3. assert (stat # nb <> HQ_CANDIDATE) as Hs2 by (intros Hx; exact (H1 (conj Hin Hx))). rewrite Ps in Hs2. destruct (nb =? cur) eqn:Q2.
            -- apply Z.eqb_eq in Q2. rewrite Q2. rewrite (Kcur Fc). apply Z.le_max_l.
            -- pose proof (i_c0 nb Hnb Hs2) as U. clear - U Hcv. lia.
        + exact (Z.le_trans _ _ _ (Dec nb Hnb) (i_final0 p nb Hp Cv E1)).
      - intros p Hp E. destruct (D p Hp) as [[H1 H2]|(H0 & E1 & E2)].
        + left. apply F5. right. exists p. auto.
        + rewrite E1, E2. rewrite E2, Ps in E. rewrite Ps. destruct (p =? cur) eqn:Q; [congruence|].
          destruct (i_has0 p Hp E) as [Hin|Hun]; [|right; exact Hun]. left. apply F5. left.
          destruct (M4 _ Hin) as [Eq|Hin']; [injection Eq as _ Eq; rewrite Eq, Z.eqb_refl in Q; discriminate|exact Hin'].
      - intros w p Hin E. apply F5 in Hin as [Hin|(p' & P1 & P2 & P3)].
        + destruct (i_tok0 _ _ (M2 _ Hin)) as [Hp _]. destruct (D p Hp) as [[H1 H2]|(_ & E1 & E2)].
          * destruct (Cst p Hp H2) as [_ Cd]. apply (Z.le_trans _ _ _ (Dec p Hp)). apply (i_key0 w p); [apply M2; exact Hin|rewrite Cd; discriminate].
          * rewrite E1. apply i_key0; [apply M2; exact Hin|]. rewrite E2, Ps in E. destruct (p =? cur); [congruence|exact E].
        + injection P3 as -> ->. apply Z.le_refl.
      - intros w p nb Hin E Cv. destruct (covers_range _ _ Cv) as [Hnb Hp]. destruct (Same p Hp E) as [E1 _].
        assert (Hin0 : In (w, p) r').
        { apply F5 in Hin as [Hin|(p' & P1 & P2 & P3)]; [exact Hin|]. injection P3 as -> ->. rewrite P2 in E1. discriminate. }
        destruct (D nb Hnb) as [[H1 H2]|(H1 & _ & E3)]; [destruct (New nb Hnb H1 H2) as (_ & _ & -> & _); discriminate|].
        rewrite E3. rewrite Ps in E1. destruct (p =? cur) eqn:Q.
        + apply Z.eqb_eq in Q; subst p. intros Hcd. destruct (NB2 nb Cv) as [->|Hi]; [rewrite Ps, Z.eqb_refl in Hcd; discriminate|exact (H1 (conj Hi Hcd))].
        + rewrite Ps. destruct (nb =? cur); [discriminate|]. apply (i_done0 w p nb (M2 _ Hin0) E1 Cv).
      - intros p Hp E. destruct (D p Hp) as [[H1 H2]|(_ & E1 & E2)].
        + destruct (New p Hp H1 H2) as (_ & -> & _). apply Z.le_refl.
        + rewrite E1. rewrite E2, Ps in E. destruct (p =? cur) eqn:Q.
          * apply Z.eqb_eq in Q; subst p. exact Kle.
          * pose proof (i_c0 p Hp E) as U. clear - U Hcv. lia. }
    destruct (IH (key v) st' r'' IV') as (c' & st2 & G1 & G2); [clearbody stat; clear - F6 Ln Cs Hf; lia|]. rewrite G1. eauto.
Qed.

Lemma final_least c st p v : inv c st [] -> reach p v -> key ((bs_in st) # p) <= v.
Proof.
  intros IV H. induction H as [p Hp|p nb v Hr IH Cv].
  - apply (i_hi _ _ _ IV). exact Hp.
  - destruct (covers_range _ _ Cv) as [Hnb Hp]. destruct (Z.eq_dec ((bs_stat st) # p) HQ_FINAL) as [E|E].
    + pose proof (i_final _ _ _ IV p nb Hp Cv E). lia.
    + destruct (i_has _ _ _ IV p Hp E) as [[]|[E1 E2]]. pose proof (i_cand _ _ _ IV p Hp E1) as E3. rewrite E3 in IH.
      pose proof (Hunp _ ((bs_in st) # nb) E2). pose proof (i_st _ _ _ IV) as OK.
      specialize (H ltac:(apply typed_at; [exact (so_typed _ _ OK)|pose proof (so_in _ _ OK); lia])). lia.
Qed.
End Flood.

Section Init.
Context (t : ity) (rev : bool) (I0 : list Z) (noPush : option Z).
Context (Ht : t = UINT8 \/ t = UINT16) (T0 : Forall (inty t) I0) (Hbig : Z.of_nat (length I0) < 2 ^ 31).

Definition skipped (v : Z) : bool := match noPush with Some n => v =? n | None => false end.

Lemma init_queue : exists q r, initBuildHierarchicalQueue t rev noPush I0 = Some q /\ hq_ok t rev q r /\ (length r <= length I0)%nat /\
  forall v p, In (v, p) r <-> 0 <= p < Z.of_nat (length I0) /\ v = znth 0 I0 p /\ skipped v = false.
Proof.
  set (f := fun i => (znth 0 I0 i, i)). set (keep := fun i => negb (skipped (znth 0 I0 i))).
  unfold initBuildHierarchicalQueue.
  assert (G : forall l, (forall i, In i l -> 0 <= i < Z.of_nat (length I0)) -> forall q r, hq_ok t rev q r -> Z.of_nat (length r) + Z.of_nat (length l) < 2 ^ 64 ->
    exists q', fold_opt (fun q i => option_bind (rd I0 i) (fun v => if match noPush with Some n => v =? n | None => false end then Some q else hq_push t rev q v i)) l q = Some q' /\
      hq_ok t rev q' (r ++ map f (filter keep l))).
  { induction l as [|i l IH]; intros Hl q r Hq Hn; cbn [fold_opt filter map].
    - exists q. rewrite app_nil_r. auto.
    - pose proof (Hl i (or_introl eq_refl)) as Hi. rewrite (rd_znth 0) by exact Hi. cbn [option_bind length] in *.
      change (match noPush with Some n => znth 0 I0 i =? n | None => false end) with (skipped (znth 0 I0 i)).
      assert (E : keep i = negb (skipped (znth 0 I0 i))) by reflexivity. rewrite E.
      destruct (skipped (znth 0 I0 i)); cbn [negb].
      + apply IH; [intros; apply Hl; right; assumption|exact Hq|lia].
      + destruct (hq_push_ok t rev q r (znth 0 I0 i) i Hq) as (q' & -> & Hq'); [apply (typed_at t); auto|lia|].
        destruct (IH (fun j Hj => Hl j (or_intror Hj)) q' _ Hq') as (q2 & E2 & H2); [rewrite app_length; cbn; lia|].
        exists q2. split; [exact E2|]. cbn [map]. rewrite <- app_assoc in H2. exact H2. }
  destruct (G (zseq (Z.of_nat (length I0))) (fun i H => proj1 (zseq_In _ _) H) (hq_init t rev) [] (hq_init_ok t rev Ht)) as (q & E & Hq).
  { rewrite zseq_length. cbn. lia. }
  cbn [app] in Hq. exists q, (map f (filter keep (zseq (Z.of_nat (length I0))))). split; [exact E|]. split; [exact Hq|]. split.
  - rewrite map_length. pose proof (zseq_length (Z.of_nat (length I0))) as L. rewrite Nat2Z.id in L. rewrite <- L at 2.
    generalize (zseq (Z.of_nat (length I0))). intros l. induction l as [|x l IH]; cbn; [lia|]. destruct (keep x); cbn; lia.
  - intros v p. rewrite in_map_iff. split.
    + intros (i & Ei & Hi). injection Ei as <- ->. apply filter_In in Hi as [H1 H2]. apply zseq_In in H1. unfold keep in H2. split; [exact H1|]. split; [reflexivity|].
      destruct (skipped (znth 0 I0 p)); [discriminate|reflexivity].
    + intros (H1 & -> & H2). exists p. split; [reflexivity|]. apply filter_In. split; [apply zseq_In; exact H1|]. unfold keep. rewrite H2. reflexivity.
Qed.
End Init.

Section RunBuild.
Context (t : ity) (rev : bool) (oper : Z -> Z -> Z) (se : strelt) (s : dims) (M I0 S0 : list Z) (noPush : option Z).
Notation N := (dw s * dh s * dd s).
Context (Ht : t = UINT8 \/ t = UINT16) (Hs : int_sized s) (Hpts : int_points se) (Hpl : planar se s).
Context (Hop : forall a b, key rev (oper a b) = Z.max (key rev a) (key rev b)).
Context (LM : Z.of_nat (length M) = N) (L0 : Z.of_nat (length I0) = N) (LS : Z.of_nat (length S0) = N) (TM : Forall (inty t) M) (T0 : Forall (inty t) I0).
Context (Hlo : forall p, 0 <= p < N -> key rev (znth 0 M p) <= key rev (znth 0 I0 p)).
Context (Hun : forall v w, skipped noPush v = true -> inty t w -> key rev w <= key rev v).
Context (HS0 : forall p, 0 <= p < N -> znth 0 S0 p = HQ_CANDIDATE \/
  (znth 0 S0 p = HQ_FINAL /\ skipped noPush (znth 0 I0 p) = true /\ znth 0 M p = znth 0 I0 p)).

Lemma run_build_ok fuel : (2 * length I0 <= fuel)%nat ->
  exists R, run_build fuel t rev noPush oper se false M (Img s I0) S0 = Some (Some (1, Img s R)) /\
    Z.of_nat (length R) = N /\ Forall (inty t) R /\
    forall p, 0 <= p < N -> reach rev se s M I0 p (key rev (znth 0 R p)) /\ forall v, reach rev se s M I0 p v -> key rev (znth 0 R p) <= v.
Proof.
  intros Hf. unfold run_build. cbn [pixs sz].
  destruct (init_queue t rev I0 noPush Ht T0) as (q & r & -> & Hq & Lr & Hr); [destruct Hs; lia|]. cbn [option_bind].
  rewrite L0 in Hr. pose proof (count_le HQ_CANDIDATE S0) as Cl.
  assert (exists c, forall v, inty t v -> c <= key rev v) as [c Hc].
  { exists (- 65535). intros v Hv. unfold inty in Hv. pose proof (u816 t Ht). unfold key. destruct rev; lia. }
  assert (IV : inv t rev se s M I0 (skipped noPush) c (BS I0 S0 q) r).
  { constructor; cbn [bs_in bs_stat bs_q].
    - constructor; cbn [bs_in bs_stat bs_q]; auto. clear - Lr Cl L0 LS. lia.
    - intros v p H. apply Hr in H as (H1 & -> & _). split; [exact H1|]. apply Hc. apply (typed_at t); auto. rewrite L0; exact H1.
    - auto.
    - exact Hlo.
    - intros; apply Z.le_refl.
    - intros p Hp. apply reach0; exact Hp.
    - intros p nb Hp Cv E. destruct (HS0 p Hp) as [E'|(_ & Sk & _)]; [rewrite E' in E; discriminate|].
      destruct (covers_range se s nb p Cv) as [Hnb _].
      apply (Z.le_trans _ (key rev (znth 0 I0 p))); [|apply Z.le_max_l]. apply Hun; [exact Sk|]. apply (typed_at t); auto. rewrite L0; exact Hnb.
    - intros p Hp E. destruct (HS0 p Hp) as [E'|(E' & _)]; [|contradiction].
      destruct (skipped noPush (znth 0 I0 p)) eqn:Sk; [right; auto|]. left. apply Hr. auto.
    - intros v p H _. apply Hr in H as (H1 & -> & _). apply Z.le_refl.
    - intros v p nb H E _. apply Hr in H as (H1 & -> & Sk). destruct (HS0 p H1) as [E'|(_ & Sk' & _)]; [rewrite E' in E; discriminate|congruence].
    - intros p Hp E. destruct (HS0 p Hp) as [E'|(_ & _ & ->)]; [contradiction|]. apply Z.le_max_r. }
  destruct (loop_ok t rev oper se s M I0 Hs Hpts Hpl Hop LM TM (skipped noPush) Hun fuel c _ r IV) as (c' & st' & E & IV').
  { cbn [bs_stat]. clear - Lr Cl L0 LS Hf. lia. }
  cbv beta in E. rewrite E. cbn [fuel_bind]. exists (bs_in st'). split; [reflexivity|].
  pose proof (i_st _ _ _ _ _ _ _ _ _ _ IV') as OK. split; [exact (so_in _ _ _ _ _ OK)|]. split; [exact (so_typed _ _ _ _ _ OK)|].
  intros p Hp. split; [apply (i_reach _ _ _ _ _ _ _ _ _ _ IV' p Hp)|]. intros v Hv. eapply final_least; eauto.
Qed.
End RunBuild.
