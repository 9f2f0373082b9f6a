(** [FIFO_Queue] is a list; [HierarchicalQueue] serves the best priority, first come first served. *)
From Verif Require Export Spec.QueueSpec Proofs.PreludeFacts Proofs.IntsFacts.

Lemma to_size_id z : 0 <= z < 2 ^ 64 -> to_size z = z.
Proof. intros; unfold to_size; apply Z.mod_small; lia. Qed.

Lemma wr_eq {A} (l : list A) i v : 0 <= i < Z.of_nat (length l) -> wr l i v = Some (upd_nat l (Z.to_nat i) v).
Proof. intros; unfold wr. replace (_ && _) with true by lia. reflexivity. Qed.

(** ** FIFO *)
Record fq_ok (n : Z) (q : fifo) (l : list Z) : Prop := {
  fo_n : 0 <= n /\ n + 1 < 2 ^ 64;
  fo_real : n + 1 <= fq_real q;
  fo_real2 : fq_real q < 2 ^ 64;
  fo_len : Z.of_nat (length (fq_data q)) = fq_real q;
  fo_first : 0 <= fq_first q;
  fo_last : fq_last q <= fq_real q;
  fo_size : fq_size q = Z.of_nat (length l);
  fo_diff : fq_last q - fq_first q = Z.of_nat (length l);
  fo_rd : forall k v, rd l k = Some v -> rd (fq_data q) (fq_first q + k) = Some (Some v) }.

Lemma fq_init_ok n : 0 <= n -> n + 1 < 2 ^ 64 -> fq_ok n (fq_init n) [].
Proof.
  intros H1 H2. unfold fq_init. rewrite to_size_id by lia.
  assert (8 < 2 ^ 64) by lia.
  constructor; cbn [fq_size fq_real fq_first fq_last fq_data length]; try lia.
  - rewrite map_length, zseq_length; lia.
  - intros k v Hk. apply rd_Some_range in Hk. cbn in Hk; lia.
Qed.

Lemma fq_swap_ok n q l : fq_ok n q l -> exists q', fq_swap q = Some q' /\ fq_ok n q' l /\ fq_last q' = Z.of_nat (length l).
Proof.
  intros [? ? ? ? ? ? ? ? ?]. unfold fq_swap.
  replace ((0 <=? fq_last q - fq_first q) && (0 <=? fq_first q) &&
    (fq_first q + (fq_last q - fq_first q) <=? Z.of_nat (length (fq_data q)))) with true by lia.
  eexists; split; [reflexivity|]. split; [|cbn; lia].
  constructor; cbn [fq_size fq_real fq_first fq_last fq_data length]; try lia.
  - rewrite app_length, firstn_length, !skipn_length; lia.
  - intros k v Hk. pose proof (rd_Some_range _ _ _ Hk) as R.
    rewrite rd_app, firstn_length, skipn_length.
    replace (0 + k <? _) with true by lia.
    rewrite rd_firstn. replace (0 + k <? _) with true by lia. rewrite rd_skipn by lia.
    rewrite <- (fo_rd0 k v Hk). f_equal; lia.
Qed.

Lemma fq_push_ok n q l v : fq_ok n q l -> Z.of_nat (length l) < n ->
  exists q', fq_push q v = Some q' /\ fq_ok n q' (l ++ [v]).
Proof.
  intros H Hn. unfold fq_push.
  assert (exists q1, (if fq_last q =? fq_real q then fq_swap q else Some q) = Some q1 /\ fq_ok n q1 l /\ fq_last q1 < fq_real q1) as [q1 [-> [H1 L1]]].
  { destruct (fq_last q =? fq_real q) eqn:E.
    - destruct (fq_swap_ok _ _ _ H) as [q' [E1 [E2 E3]]]. exists q'. split; [|split]; auto. destruct E2; lia.
    - exists q. destruct H; split; [|split]; [reflexivity|constructor; auto|lia]. }
  cbn [option_bind]. destruct H1.
  rewrite wr_eq by lia. cbn [option_bind]. eexists; split; [reflexivity|].
  constructor; cbn [fq_size fq_real fq_first fq_last fq_data]; rewrite ?app_length; cbn [length]; try lia.
  - rewrite upd_nat_length; lia.
  - rewrite to_size_id; lia.
  - rewrite to_size_id; lia.
  - rewrite to_size_id; lia.
  - intros k w Hk. pose proof (rd_Some_range _ _ _ Hk) as R. rewrite app_length in R; cbn in R.
    assert (W : wr (fq_data q1) (fq_last q1) (Some v) = Some (upd_nat (fq_data q1) (Z.to_nat (fq_last q1)) (Some v))) by (apply wr_eq; lia).
    rewrite (rd_wr _ _ _ _ (fq_first q1 + k) W).
    rewrite rd_app in Hk. destruct (k <? Z.of_nat (length l)) eqn:E.
    + replace (_ =? _) with false by lia. auto.
    + replace (_ =? _) with true by lia. replace (k - Z.of_nat (length l)) with 0 in Hk by lia. cbn in Hk. congruence.
Qed.

Lemma fq_front_ok n q v l : fq_ok n q (v :: l) -> fq_front q = Some v.
Proof.
  intros []. unfold fq_front. specialize (fo_rd0 0 v eq_refl). rewrite Z.add_0_r in fo_rd0. rewrite fo_rd0. reflexivity.
Qed.

Lemma fq_pop_ok n q v l : fq_ok n q (v :: l) -> fq_ok n (fq_pop q) l.
Proof.
  intros []. unfold fq_pop. cbn [length] in *.
  constructor; cbn [fq_size fq_real fq_first fq_last fq_data]; try lia.
  - rewrite to_size_id; lia.
  - rewrite to_size_id; lia.
  - rewrite to_size_id; lia.
  - intros k w Hk. pose proof (rd_Some_range _ _ _ Hk) as R. rewrite to_size_id by lia.
    rewrite <- (fo_rd0 (k + 1) w).
    + f_equal; lia.
    + unfold rd in *. replace (0 <=? k) with true in Hk by lia. replace (0 <=? k + 1) with true by lia.
      replace (Z.to_nat (k + 1)) with (S (Z.to_nat k)) by lia. exact Hk.
Qed.

Lemma peak_ge ops n : n <= peak ops n.
Proof. destruct ops as [|[] ops]; cbn [peak]; lia. Qed.

Lemma fifo_refines n ops : forall q l outs, fq_ok n q l -> peak ops (Z.of_nat (length l)) <= n ->
  ref_fifo ops l = Some outs -> run_fifo ops q = Some outs.
Proof.
  induction ops as [|[v| | |] ops IH]; intros q l outs H Hp Hr; cbn [run_fifo ref_fifo peak] in *.
  - exact Hr.
  - pose proof (peak_ge ops (Z.of_nat (length l) + 1)).
    destruct (fq_push_ok _ _ _ v H) as [q' [-> H']]; [lia|]. cbn [option_bind].
    apply (IH _ _ _ H'); [|exact Hr]. rewrite app_length; cbn [length]. replace (Z.of_nat _) with (Z.of_nat (length l) + 1) by lia. lia.
  - destruct l as [|v l]; [discriminate|]. rewrite (fq_front_ok _ _ _ _ H). cbn [option_bind].
    destruct (ref_fifo ops (v :: l)) eqn:E; [|discriminate]. rewrite (IH _ _ _ H ltac:(lia) E). exact Hr.
  - destruct l as [|v l]; [discriminate|]. cbn [length] in Hp. replace (Z.of_nat (S (length l)) - 1) with (Z.of_nat (length l)) in Hp by lia.
    apply (IH _ _ _ (fq_pop_ok _ _ _ _ H)); [lia|exact Hr].
  - destruct (ref_fifo ops l) eqn:E; [|discriminate]. rewrite (IH _ _ _ H ltac:(lia) E). destruct H as [? ? ? ? ? ? -> ? ?]. exact Hr.
Qed.

(** ** Hierarchical queue *)
Definition at_level (l : Z) (r : list (Z * Z)) : list (Z * Z) := filter (fun e => fst e =? l) r.
Definition toks (l : Z) (r : list (Z * Z)) : list Z := map snd (at_level l r).

Record hq_ok (t : ity) (rev : bool) (q : hqueue) (r : list (Z * Z)) : Prop := {
  ho_t : t = UINT8 \/ t = UINT16;
  ho_ty : forall e, In e r -> inty t (fst e);
  ho_len : Z.of_nat (length r) < 2 ^ 64;
  ho_ls : Z.of_nat (length (hq_stacks q)) = tcard t;
  ho_ln : Z.of_nat (length (hq_nbr q)) = tcard t;
  ho_stacks : forall l, 0 <= l < tcard t -> rd (hq_stacks q) l = Some (toks l r);
  ho_nbr : forall l, 0 <= l < tcard t -> rd (hq_nbr q) l = Some (Z.of_nat (length (toks l r)));
  ho_size : hq_size q = Z.of_nat (length r);
  ho_level0 : r = [] -> if rev then hq_level q = 0 else tmax t <= hq_level q;
  ho_level1 : r <> [] -> (exists e, In e r /\ fst e = hq_level q) /\
     forall e, In e r -> if rev then fst e <= hq_level q else hq_level q <= fst e }.

Lemma u816 t : t = UINT8 \/ t = UINT16 -> tmin t = 0 /\ tcard t = tmax t + 1 /\ 255 <= tmax t <= 65535.
Proof. intros [->| ->]; cbn; lia. Qed.

Lemma hq_init_ok t rev : t = UINT8 \/ t = UINT16 -> hq_ok t rev (hq_init t rev) [].
Proof.
  intros H. pose proof (u816 _ H) as [A [B C]]. unfold hq_init.
  constructor; cbn [hq_stacks hq_nbr hq_size hq_level length]; auto; try lia.
  - intros e [].
  - rewrite map_length, zseq_length; lia.
  - rewrite map_length, zseq_length; lia.
  - intros l Hl. rewrite rd_map, rd_zseq by lia. reflexivity.
  - intros l Hl. rewrite rd_map, rd_zseq by lia. reflexivity.
  - destruct rev; [reflexivity|]. rewrite to_size_id by lia. lia.
  - intros E; congruence.
Qed.

Lemma toks_app l a b : toks l (a ++ b) = toks l a ++ toks l b.
Proof. unfold toks, at_level. rewrite filter_app, map_app. reflexivity. Qed.

Lemma toks_one l v k : toks l [(v, k)] = if v =? l then [k] else [].
Proof. unfold toks, at_level. cbn. destruct (v =? l); reflexivity. Qed.

Lemma toks_len l r : (length (toks l r) <= length r)%nat.
Proof. unfold toks, at_level. rewrite map_length. induction r as [|e r IH]; cbn; [lia|]. destruct (_ =? _); cbn; lia. Qed.

Lemma toks_pos l r e : In e r -> fst e = l -> (0 < length (toks l r))%nat.
Proof.
  intros H1 H2. unfold toks. rewrite map_length. assert (In e (at_level l r)) by (apply filter_In; split; [exact H1|lia]).
  destruct (at_level l r); [contradiction|cbn; lia].
Qed.

Lemma toks_pos' l r : (0 < length (toks l r))%nat -> exists e, In e r /\ fst e = l.
Proof.
  unfold toks. rewrite map_length. intros H. destruct (at_level l r) as [|e s] eqn:E; [cbn in H; lia|].
  exists e. assert (I : In e (at_level l r)) by (rewrite E; left; reflexivity). apply filter_In in I. split; [tauto|lia].
Qed.

Lemma hq_push_ok t rev q r v tok : hq_ok t rev q r -> inty t v -> Z.of_nat (length r) + 1 < 2 ^ 64 ->
  exists q', hq_push t rev q v tok = Some q' /\ hq_ok t rev q' (r ++ [(v, tok)]).
Proof.
  intros [] Hv Hl. pose proof (u816 _ ho_t0) as [A [B C]]. unfold inty in Hv.
  unfold hq_push. rewrite A. rewrite (to_size_id v) by lia. replace (to_size 0) with 0 by reflexivity. rewrite Z.sub_0_r, (to_size_id v) by lia.
  rewrite ho_stacks0 by lia. cbn [option_bind]. rewrite wr_eq by lia. cbn [option_bind].
  rewrite ho_nbr0 by lia. cbn [option_bind]. rewrite wr_eq by lia. cbn [option_bind].
  eexists; split; [reflexivity|].
  assert (W1 := wr_eq (hq_stacks q) v (toks v r ++ [tok]) ltac:(lia)).
  pose proof (toks_len v r) as TL.
  assert (W2 := wr_eq (hq_nbr q) v (to_size (Z.of_nat (length (toks v r)) + 1)) ltac:(lia)).
  constructor; cbn [hq_stacks hq_nbr hq_size hq_level]; auto.
  - intros e He. apply in_app_iff in He as [He|[<-|[]]]; [auto|]. unfold inty; cbn; lia.
  - rewrite app_length; cbn; lia.
  - rewrite upd_nat_length; lia.
  - rewrite upd_nat_length; lia.
  - intros l Hll. rewrite (rd_wr _ _ _ _ l W1). rewrite toks_app, toks_one.
    destruct (v =? l) eqn:E; [replace l with v by lia; reflexivity|].
    rewrite app_nil_r. auto.
  - intros l Hll. rewrite (rd_wr _ _ _ _ l W2). rewrite toks_app, toks_one.
    destruct (v =? l) eqn:E.
    + replace l with v by lia. rewrite app_length. cbn [length]. rewrite to_size_id by lia. f_equal; lia.
    + rewrite app_nil_r. auto.
  - rewrite ho_size0, to_size_id, app_length by lia. cbn; lia.
  - intros E. apply app_eq_nil in E as [_ E]; discriminate.
  - intros _. destruct r as [|e0 r0].
    + specialize (ho_level2 eq_refl). cbn [app]. split.
      * exists (v, tok). split; [left; reflexivity|]. cbn [fst]. destruct rev.
        -- destruct (v >? hq_level q) eqn:?; lia.
        -- destruct (v <? hq_level q) eqn:?; lia.
      * intros e [<-|[]]. cbn [fst]. destruct rev.
        -- destruct (v >? hq_level q) eqn:?; lia.
        -- destruct (v <? hq_level q) eqn:?; lia.
    + destruct (ho_level3 ltac:(discriminate)) as [[e [E1 E2]] E3]. split.
      * destruct rev.
        -- destruct (v >? hq_level q) eqn:?.
           ++ exists (v, tok). split; [apply in_app_iff; right; left; reflexivity|reflexivity].
           ++ exists e. split; [apply in_app_iff; left; exact E1|exact E2].
        -- destruct (v <? hq_level q) eqn:?.
           ++ exists (v, tok). split; [apply in_app_iff; right; left; reflexivity|reflexivity].
           ++ exists e. split; [apply in_app_iff; left; exact E1|exact E2].
      * intros e' He. apply in_app_iff in He as [He|[<-|[]]].
        -- specialize (E3 _ He). destruct rev.
           ++ destruct (v >? hq_level q) eqn:?; lia.
           ++ destruct (v <? hq_level q) eqn:?; lia.
        -- cbn [fst]. destruct rev.
           ++ destruct (v >? hq_level q) eqn:?; lia.
           ++ destruct (v <? hq_level q) eqn:?; lia.
Qed.

Lemma scan_up_spec nbr higher n : forall i, 0 <= i -> i + Z.of_nat n = Z.of_nat (length nbr) ->
  (forall j k, i <= j -> rd nbr j = Some k -> 0 <= k) ->
  (exists j k, i <= j /\ rd nbr j = Some k /\ 0 < k) ->
  exists j k, scan_up nbr n i higher = Some j /\ i <= j /\ rd nbr j = Some k /\ 0 < k /\ forall j', i <= j' < j -> rd nbr j' = Some 0.
Proof.
  induction n as [|n IH]; intros i Hi Hn Hp [j [k [H1 [H2 H3]]]].
  - apply rd_Some_range in H2. lia.
  - cbn [scan_up]. destruct (rd_in_range nbr i ltac:(lia)) as [k0 E0]. rewrite E0. cbn [option_bind].
    destruct (k0 >? 0) eqn:E.
    + exists i, k0. repeat split; auto; try lia. 
    + assert (j <> i) by (intros ->; rewrite E0 in H2; injection H2; lia).
      destruct (IH (i + 1)) as [j1 [k1 [A1 [A2 [A3 [A4 A5]]]]]]; try lia.
      * intros j' k' ? ?. apply (Hp j' k'); [lia|auto].
      * exists j, k. repeat split; auto; lia.
      * exists j1, k1. repeat split; auto; try lia. intros j' Hj. destruct (Z.eq_dec j' i) as [->|]; [|apply A5; lia].
        pose proof (Hp i k0 ltac:(lia) E0). rewrite E0. f_equal; lia.
Qed.

Lemma scan_down_spec t nbr higher n : forall i, i + 1 = Z.of_nat n -> i < Z.of_nat (length nbr) -> i < to_size (tmax t) ->
  (forall j k, j <= i -> rd nbr j = Some k -> 0 <= k) ->
  (exists j k, j <= i /\ rd nbr j = Some k /\ 0 < k) ->
  exists j k, scan_down t nbr n i higher = Some j /\ j <= i /\ rd nbr j = Some k /\ 0 < k /\ forall j', j < j' <= i -> rd nbr j' = Some 0.
Proof.
  induction n as [|n IH]; intros i Hi Hn Ht Hp [j [k [H1 [H2 H3]]]].
  - apply rd_Some_range in H2. lia.
  - cbn [scan_down]. replace (i =? to_size (tmax t)) with false by lia.
    destruct (rd_in_range nbr i ltac:(lia)) as [k0 E0]. rewrite E0. cbn [option_bind].
    destruct (k0 >? 0) eqn:E.
    + exists i, k0. repeat split; auto; try lia.
    + assert (j <> i) by (intros ->; rewrite E0 in H2; injection H2; lia).
      destruct (IH (i - 1)) as [j1 [k1 [A1 [A2 [A3 [A4 A5]]]]]]; try lia.
      * intros j' k' ? ?. apply (Hp j' k'); [lia|auto].
      * exists j, k. repeat split; auto; lia.
      * exists j1, k1. repeat split; auto; try lia. intros j' Hj. destruct (Z.eq_dec j' i) as [->|]; [|apply A5; lia].
        pose proof (Hp i k0 ltac:(lia) E0). rewrite E0. f_equal; lia.
Qed.

Lemma split_first (l : Z) (r : list (Z * Z)) k s : toks l r = k :: s ->
  exists a b, r = a ++ (l, k) :: b /\ (forall e, In e a -> fst e <> l) /\ toks l b = s.
Proof.
  induction r as [|[v w] r IH]; intros H; [discriminate|]. unfold toks, at_level in H. cbn [filter fst] in H.
  destruct (v =? l) eqn:E.
  - cbn in H. injection H as -> H. exists [], r. repeat split; [replace v with l by lia; reflexivity| |exact H]. intros e [].
  - destruct (IH H) as [a [b [-> [H1 H2]]]]. exists ((v, w) :: a), b. repeat split; auto.
    intros e [<-|He]; [cbn; lia|auto].
Qed.

Lemma toks_none l a : (forall e, In e a -> fst e <> l) -> toks l a = [].
Proof.
  intros H. unfold toks, at_level. induction a as [|e a IH]; [reflexivity|]. cbn [filter].
  replace (fst e =? l) with false by (specialize (H e (or_introl eq_refl)); lia). apply IH. intros; apply H; right; auto.
Qed.

Lemma hq_pop_ok t rev q r : hq_ok t rev q r -> r <> [] ->
  exists v tok q' r', hq_pop t rev q = Some (tok, q') /\ hq_ok t rev q' r' /\ served rev r (v, tok) r' /\ length r = S (length r').
Proof.
  intros [] Hr. pose proof (u816 _ ho_t0) as [A [B C]].
  destruct (ho_level3 Hr) as [[e [E1 E2]] E3]. pose proof (ho_ty0 _ E1) as Te. unfold inty in Te.
  set (h := hq_level q) in *. assert (Hh : 0 <= h < tcard t) by lia.
  pose proof (toks_pos h r e E1 E2) as P1.
  destruct (toks h r) as [|tok s] eqn:Et; [cbn in P1; lia|].
  destruct (split_first _ _ _ _ Et) as [a [b [Er [Ha Hb]]]].
  exists h, tok. 
  assert (Sv : served rev r (h, tok) (a ++ b)).
  { exists a, b. split; [exact Er|]. split; [reflexivity|]. split.
    - intros e' He. assert (fst e' <> h) by auto. specialize (E3 e'). rewrite Er in E3. specialize (E3 (in_or_app _ _ _ (or_introl He))).
      unfold better; cbn [fst]. destruct rev; lia.
    - intros e' He. specialize (E3 e'). rewrite Er in E3. specialize (E3 (in_or_app _ _ _ (or_intror (in_cons _ _ _ He)))).
      unfold better; cbn [fst]. destruct rev; lia. }
  assert (Ln : length r = S (length (a ++ b))) by (rewrite Er, !app_length; cbn; lia).
  assert (Inr : forall e', In e' (a ++ b) -> In e' r).
  { intros e' He. rewrite Er. apply in_app_iff in He as [He|He]; apply in_app_iff; [left|right; right]; exact He. }
  assert (TK : forall l, toks l (a ++ b) = if l =? h then s else toks l r).
  { intros l. rewrite Er, !toks_app. replace ((h, tok) :: b) with ([(h, tok)] ++ b) by reflexivity. rewrite toks_app, toks_one.
    destruct (l =? h) eqn:E.
    - replace l with h by lia. rewrite (toks_none h a Ha), Hb. reflexivity.
    - replace (h =? l) with false by lia. reflexivity. }
  unfold hq_pop. fold h. rewrite ho_nbr0, ho_stacks0 by lia. cbn [option_bind]. rewrite Et.
  rewrite ho_size0, to_size_id by lia.
  assert (Gen : forall nb lv, Z.of_nat (length nb) = tcard t ->
     (forall l, 0 <= l < tcard t -> rd nb l = Some (Z.of_nat (length (toks l (a ++ b))))) ->
     (a ++ b = [] -> if rev then lv = 0 else tmax t <= lv) ->
     (a ++ b <> [] -> (exists e, In e (a ++ b) /\ fst e = lv) /\
         forall e, In e (a ++ b) -> if rev then fst e <= lv else lv <= fst e) ->
     hq_ok t rev (HQ (upd (hq_stacks q) h s) nb (Z.of_nat (length r) - 1) lv) (a ++ b)).
  { intros nb lv N1 N2 N3 N4. constructor; cbn [hq_stacks hq_nbr hq_size hq_level]; auto; try lia.
    - rewrite upd_length; lia.
    - intros l Hl. rewrite rd_upd, TK, (Z.eqb_sym h l). destruct (l =? h) eqn:E.
      + replace (_ && _) with true by lia. reflexivity.
      + cbn [andb]. auto. }
  destruct (Z.of_nat (length (tok :: s)) >? 1) eqn:E.
  - eexists _, _; split; [reflexivity|]. split; [|split; [exact Sv|exact Ln]].
    cbn [length] in E. destruct s as [|k1 s1] eqn:Es; [cbn in E; lia|]. 
    apply Gen.
    + rewrite upd_length; lia.
    + intros l Hl. rewrite rd_upd, TK, (Z.eqb_sym h l). destruct (l =? h) eqn:El.
      * replace (_ && _) with true by lia. f_equal. cbn [length]; lia.
      * cbn [andb]. auto.
    + intros E0. specialize (TK h). rewrite E0, Z.eqb_refl in TK. discriminate.
    + intros _. split.
      * specialize (TK h). rewrite Z.eqb_refl in TK. destruct (toks_pos' h (a ++ b)) as [e' [? ?]]; [rewrite TK; cbn; lia|]. eauto.
      * intros e' He. apply E3, Inr, He.
  - assert (s = []) as -> by (destruct s; [reflexivity|cbn in E; lia]).
    set (nb := upd (hq_nbr q) h 0).
    assert (N1 : Z.of_nat (length nb) = tcard t) by (unfold nb; rewrite upd_length; lia).
    assert (N2 : forall l, 0 <= l < tcard t -> rd nb l = Some (Z.of_nat (length (toks l (a ++ b))))).
    { intros l Hl. unfold nb. rewrite rd_upd, TK, (Z.eqb_sym h l). destruct (l =? h) eqn:El.
      - replace (_ && _) with true by lia. reflexivity.
      - cbn [andb]. auto. }
    assert (Hab : forall e', In e' (a ++ b) -> fst e' <> h).
    { intros e' He Ee. pose proof (toks_pos h _ _ He Ee) as P. rewrite TK, Z.eqb_refl in P. cbn in P; lia. }
    destruct (Z.of_nat (length r) - 1 >? 0) eqn:E4.
    + assert (NE : a ++ b <> []) by (intros Z0; rewrite Z0 in Ln; cbn in Ln; lia).
      destruct (a ++ b) as [|e0 r0] eqn:Eab; [congruence|].
      assert (I0 : In e0 (e0 :: r0)) by (left; reflexivity).
      assert (Pos : forall j k, rd nb j = Some k -> 0 <= k).
      { intros j k Hj. pose proof (rd_Some_range _ _ _ Hj). rewrite N2 in Hj by lia. injection Hj; lia. }
      assert (P0 : forall e', In e' (e0 :: r0) -> exists k, rd nb (fst e') = Some k /\ 0 < k).
      { intros e' He. pose proof (ho_ty0 _ (Inr _ He)) as T'. unfold inty in T'. rewrite N2 by lia. eexists; split; [reflexivity|].
        pose proof (toks_pos (fst e') _ _ He eq_refl). lia. }
      unfold findNewReferenceLevel. destruct rev.
      * destruct (scan_down_spec t nb h (Z.to_nat h) (h - 1)) as [j [k [S1 [S2 [S3 [S4 S5]]]]]].
        -- lia.
        -- lia.
        -- rewrite to_size_id; lia.
        -- intros; eauto.
        -- destruct (P0 _ I0) as [k [? ?]]. exists (fst e0), k. pose proof (E3 _ (Inr _ I0)). pose proof (Hab _ I0). repeat split; auto; lia.
        -- rewrite S1. cbn [option_bind]. eexists _, _; split; [reflexivity|]. split; [|split; [exact Sv|exact Ln]].
           apply Gen; auto.
           ++ intros Z0; congruence.
           ++ intros _. pose proof (rd_Some_range _ _ _ S3). rewrite N2 in S3 by lia. split.
              ** destruct (toks_pos' j (e0 :: r0)) as [e' [? ?]]; [injection S3; lia|eauto].
              ** intros e' He. destruct (P0 _ He) as [k' [Q1 Q2]]. pose proof (E3 _ (Inr _ He)). pose proof (Hab _ He).
                 destruct (Z_le_gt_dec (fst e') j) as [|G]; [lia|]. rewrite S5 in Q1 by lia. injection Q1; lia.
      * rewrite to_size_id by lia.
        destruct (scan_up_spec nb h (Z.to_nat (tcard t - (h + 1))) (h + 1)) as [j [k [S1 [S2 [S3 [S4 S5]]]]]].
        -- lia.
        -- lia.
        -- intros; eauto.
        -- destruct (P0 _ I0) as [k [? ?]]. exists (fst e0), k. pose proof (E3 _ (Inr _ I0)). pose proof (Hab _ I0). repeat split; auto; lia.
        -- rewrite S1. cbn [option_bind]. eexists _, _; split; [reflexivity|]. split; [|split; [exact Sv|exact Ln]].
           apply Gen; auto.
           ++ intros Z0; congruence.
           ++ intros _. pose proof (rd_Some_range _ _ _ S3). rewrite N2 in S3 by lia. split.
              ** destruct (toks_pos' j (e0 :: r0)) as [e' [? ?]]; [injection S3; lia|eauto].
              ** intros e' He. destruct (P0 _ He) as [k' [Q1 Q2]]. pose proof (E3 _ (Inr _ He)). pose proof (Hab _ He).
                 destruct (Z_le_gt_dec j (fst e')) as [|G]; [lia|]. rewrite S5 in Q1 by lia. injection Q1; lia.
    + eexists _, _; split; [reflexivity|]. split; [|split; [exact Sv|exact Ln]].
      assert (Z0 : a ++ b = []) by (destruct (a ++ b); [reflexivity|cbn in Ln; lia]).
      apply Gen; auto.
      * intros _. destruct rev; [reflexivity|lia].
      * intros; congruence.
Qed.

Lemma hq_refines t rev ops : forall q r, hq_ok t rev q r -> Forall (push_typed t) ops ->
  pops_ok ops (Z.of_nat (length r)) -> Z.of_nat (length r) + Z.of_nat (length ops) < 2 ^ 64 ->
  exists outs, run_hq t rev ops q = Some outs /\ hruns rev ops r outs.
Proof.
  induction ops as [|[v tok| | |] ops IH]; intros q r H Ht Hp Hl; cbn [run_hq pops_ok length] in *.
  - eexists; split; [reflexivity|constructor].
  - inversion Ht as [|x y Hv Ht']; subst. cbn [push_typed] in Hv.
    destruct (hq_push_ok _ _ _ _ v tok H Hv ltac:(lia)) as [q' [-> H']]. cbn [option_bind].
    destruct (IH q' _ H' Ht') as [outs [O1 O2]].
    + rewrite app_length. cbn [length]. replace (Z.of_nat (length r + 1)) with (Z.of_nat (length r) + 1) by lia. exact Hp.
    + rewrite app_length; cbn; lia.
    + exists outs. split; [exact O1|constructor; exact O2].
  - inversion Ht as [|x y Hv Ht']; subst. destruct Hp as [Hp0 Hp].
    destruct (hq_pop_ok _ _ _ _ H) as [v [tok [q' [r' [-> [H' [S' L']]]]]]]; [intros ->; cbn in Hp0; lia|].
    cbn [option_bind fst snd]. destruct (IH q' r' H' Ht') as [outs [O1 O2]]; [|lia|].
    + replace (Z.of_nat (length r')) with (Z.of_nat (length r) - 1) by lia. exact Hp.
    + exists (tok :: outs). rewrite O1. split; [reflexivity|econstructor; eauto].
  - inversion Ht as [|x y Hv Ht']; subst. destruct (IH q r H Ht' Hp ltac:(lia)) as [outs [O1 O2]].
    eexists. rewrite O1. unfold hq_getSize. rewrite (ho_size _ _ _ _ H). split; [reflexivity|constructor; exact O2].
  - inversion Ht as [|x y Hv Ht']; subst. destruct (IH q r H Ht' Hp ltac:(lia)) as [outs [O1 O2]].
    eexists. rewrite O1. unfold hq_isEmpty. rewrite (ho_size _ _ _ _ H). cbn [option_map]. split; [|constructor; exact O2].
    destruct r; reflexivity.
Qed.

Lemma served_det rev l e1 l1 e2 l2 : served rev l e1 l1 -> served rev l e2 l2 -> e1 = e2 /\ l1 = l2.
Proof.
  intros [a1 [b1 [A1 [A2 [A3 A4]]]]] [a2 [b2 [B1 [B2 [B3 B4]]]]]. subst.
  revert a2 A3 A4 B1 B3 B4. induction a1 as [|x a1 IH]; intros [|y a2] A3 A4 B1 B3 B4; cbn in B1.
  - injection B1 as -> ->. auto.
  - injection B1 as -> ->. exfalso. pose proof (B3 _ (or_introl eq_refl)). 
    apply (A4 e2); [apply in_app_iff; right; left; reflexivity|auto].
  - injection B1 as -> <-. exfalso. pose proof (A3 _ (or_introl eq_refl)).
    apply (B4 e1); [apply in_app_iff; right; left; reflexivity|auto].
  - injection B1 as -> B1. destruct (IH a2) as [-> E]; auto.
    + intros; apply A3; right; auto.
    + intros; apply B3; right; auto.
    + cbn. rewrite E. auto.
Qed.

Lemma hruns_det rev ops : forall l o1 o2, hruns rev ops l o1 -> hruns rev ops l o2 -> o1 = o2.
Proof.
  induction ops as [|[v tok| | |] ops IH]; intros l o1 o2 H1 H2; inversion H1; inversion H2; subst; auto.
  - eauto.
  - match goal with A : served _ l _ _, B : served _ l _ _ |- _ => destruct (served_det _ _ _ _ _ _ A B) as [E ->]; injection E as -> -> end.
    f_equal. eauto.
  - f_equal; eauto.
  - f_equal; eauto.
Qed.
