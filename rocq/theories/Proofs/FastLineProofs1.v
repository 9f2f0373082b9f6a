(** Soille's algorithm on one line. *)
From Verif Require Import Spec.FastLineSpec Proofs.ImageFacts Proofs.PreludeFacts.

(** [v] is the greatest of [F a] .. [F (b - 1)]. *)
Definition top_of (F : Z -> Z) (a b v : Z) : Prop := (exists i, a <= i < b /\ F i = v) /\ forall i, a <= i < b -> F i <= v.

Lemma top_one F a : top_of F a (a + 1) (F a).
Proof. split; [exists a; split; [lia|reflexivity]|]. intros i Hi. replace i with a by lia. lia. Qed.
Lemma top_join F a b c d u v : top_of F a b u -> top_of F c d v -> a <= c -> c <= b -> b <= d -> top_of F a d (Z.max u v).
Proof.
  intros ((i & Hi & Ei) & Hu) ((j & Hj & Ej) & Hv) H1 H2 H3. split.
  - destruct (Z.max_spec u v) as [(_ & ->)|(_ & ->)]; [exists j|exists i]; (split; [lia|assumption]).
  - intros t Ht. destruct (Z.lt_ge_cases t b) as [L|L]; [specialize (Hu t)|specialize (Hv t)]; lia.
Qed.
Lemma top_unique F a b u v : top_of F a b u -> top_of F a b v -> u = v.
Proof. intros ((i & Hi & Ei) & Hu) ((j & Hj & Ej) & Hv). specialize (Hu j Hj). specialize (Hv i Hi). lia. Qed.

Definition blk (k y : Z) : Z := y - y mod k.
Definition bend (k n y : Z) : Z := Z.min (blk k y + k) n.

Lemma blk_le k y : 0 < k -> 0 <= y -> 0 <= blk k y <= y /\ y < blk k y + k /\ (exists q, blk k y = k * q).
Proof. intros Hk Hy. unfold blk. pose proof (Z.mod_pos_bound y k Hk). pose proof (Z.div_mod y k ltac:(lia)). pose proof (Z.mod_le y k Hy Hk). repeat split; try lia. exists (y / k). lia. Qed.
Lemma blk_eq k y a : 0 < k -> (exists q, a = k * q) -> a <= y < a + k -> blk k y = a.
Proof.
  intros Hk (q & ->) Hy. unfold blk. assert (y mod k = y - k * q) as ->; [|lia]. symmetry. apply (Z.mod_unique_pos y k q); lia.
Qed.
Lemma blk_prev k y : 0 < k -> 0 <= y -> y mod k <> 0 -> 0 < y /\ blk k (y - 1) = blk k y /\ blk k y <= y - 1.
Proof.
  intros Hk Hy H. destruct (blk_le k y Hk Hy) as (A & B & q & Q). assert (blk k y <= y - 1) by (unfold blk in *; pose proof (Z.mod_pos_bound y k Hk); lia).
  repeat split; [lia| |lia]. apply blk_eq; [lia|exists q; exact Q|lia].
Qed.
Lemma blk_next k y : 0 < k -> 0 <= y -> y mod k <> k - 1 -> blk k (y + 1) = blk k y /\ y + 1 < blk k y + k.
Proof.
  intros Hk Hy H. destruct (blk_le k y Hk Hy) as (A & B & q & Q). assert (y + 1 < blk k y + k) by (unfold blk in *; pose proof (Z.mod_pos_bound y k Hk); lia).
  split; [|lia]. apply blk_eq; [lia|exists q; exact Q|lia].
Qed.

Section Line.
Variables (k : Z) (f : list Z) (F : Z -> Z) (n N : Z).
Hypothesis (Hn : n = Z.of_nat (length f)) (Hk : 0 < k) (Hn1 : 1 <= n) (HF : forall i, 0 <= i < n -> rd f i = Some (F i)) (HN : n <= N).

Definition g_ok (g : list Z) (t : Z) : Prop := forall y, 0 <= y < t -> exists v, rd g y = Some v /\ top_of F (blk k y) (y + 1) v.
Definition h_ok (h : list Z) (t : Z) : Prop := forall y, t <= y < n -> exists v, rd h y = Some v /\ top_of F y (bend k n y) v.

Lemma line_gh_ok g h : Z.of_nat (length g) = N -> Z.of_nat (length h) = N ->
  exists g' h', line_gh k f g h = Some (g', h') /\ Z.of_nat (length g') = N /\ Z.of_nat (length h') = N /\ g_ok g' n /\ h_ok h' 0.
Proof using Hn Hk Hn1 HF HN.
  intros Lg Lh. unfold line_gh. rewrite <- Hn.
  assert (forall t, 0 <= t <= n -> exists g' h', fold_opt (fun '(g, h) x =>
    let x2 := n - 1 - x in
    option_bind (rd f x) (fun fx =>
    option_bind (if x mod k =? 0 then Some fx else option_map (fun p => Z.max p fx) (rd g (x - 1))) (fun v =>
    option_bind (wr g x v) (fun g =>
    option_bind (rd f x2) (fun fx2 =>
    option_bind (if (x2 mod k =? k - 1) || (x2 =? n - 1) then Some fx2 else option_map (fun p => Z.max p fx2) (rd h (x2 + 1))) (fun v =>
    option_bind (wr h x2 v) (fun h => Some (g, h)))))))) (zseq t) (g, h) = Some (g', h') /\ Z.of_nat (length g') = N /\ Z.of_nat (length h') = N /\ g_ok g' t /\ h_ok h' (n - t)) as HI.
  { intros t (Ht0 & Ht). revert Ht. pattern t. apply natlike_ind; [| |exact Ht0].
    - intros _. exists g, h. cbn. repeat split; try assumption; intros y Hy; lia.
    - clear t Ht0. intros t0 Ht0 IH Ht. set (t := Z.succ t0) in *.
        destruct (IH ltac:(lia)) as (g1 & h1 & E1 & L1 & L2 & G1 & H1). replace t0 with (t - 1) in * by lia. clearbody t. clear t0 IH. replace t with (t - 1 + 1) by lia. rewrite <- zrange_0_zseq, zrange_snoc, zrange_0_zseq by lia. rewrite fold_opt_app, E1. cbn [fold_opt].
        set (x := 0 + (t - 1)). set (x2 := n - 1 - x). assert (0 <= x < n) as Hx by lia. assert (0 <= x2 < n) as Hx2 by lia. cbn [option_bind]. cbv zeta. rewrite (HF x Hx). cbn [option_bind].
        assert (exists v, (if x mod k =? 0 then Some (F x) else option_map (fun p => Z.max p (F x)) (rd g1 (x - 1))) = Some v /\ top_of F (blk k x) (x + 1) v) as (v & -> & Tv).
        { destruct (Z.eqb_spec (x mod k) 0) as [E|E].
          - exists (F x). split; [reflexivity|]. unfold blk. rewrite E, Z.sub_0_r. apply top_one.
          - destruct (blk_prev k x Hk ltac:(lia) E) as (P1 & P2 & P3). destruct (G1 (x - 1) ltac:(lia)) as (u & -> & Tu). exists (Z.max u (F x)). split; [reflexivity|]. rewrite P2 in Tu.
            apply (top_join F _ (x - 1 + 1) x (x + 1)); [exact Tu|apply top_one|lia|lia|lia]. }
        cbn [option_bind]. assert (exists g2, wr g1 x v = Some g2) as (g2 & W1) by (apply wr_Some; lia). rewrite W1. cbn [option_bind]. change (n - 1 - x) with x2. rewrite (HF x2 Hx2). cbn [option_bind].
        assert (exists u, (if (x2 mod k =? k - 1) || (x2 =? n - 1) then Some (F x2) else option_map (fun p => Z.max p (F x2)) (rd h1 (x2 + 1))) = Some u /\ top_of F x2 (bend k n x2) u) as (u & -> & Tu).
        { destruct ((x2 mod k =? k - 1) || (x2 =? n - 1)) eqn:E.
          - exists (F x2). split; [reflexivity|]. replace (bend k n x2) with (x2 + 1); [apply top_one|]. unfold bend, blk. apply orb_prop in E. destruct E as [E|E]; apply Z.eqb_eq in E; [lia|].
            pose proof (Z.mod_pos_bound x2 k Hk). lia.
          - apply orb_false_elim in E. destruct E as (E1' & E2'). apply Z.eqb_neq in E1', E2'. destruct (blk_next k x2 Hk ltac:(lia) E1') as (P1 & P2).
            destruct (H1 (x2 + 1) ltac:(lia)) as (u & -> & Tu). exists (Z.max u (F x2)). split; [reflexivity|]. rewrite Z.max_comm. unfold bend in *. rewrite P1 in Tu.
            apply (top_join F x2 (x2 + 1) (x2 + 1)); [apply top_one|exact Tu|lia|lia|lia]. }
        cbn [option_bind]. assert (exists h2, wr h1 x2 u = Some h2) as (h2 & W2) by (apply wr_Some; lia). rewrite W2. cbn [option_bind]. exists g2, h2.
        split; [reflexivity|]. split; [rewrite (wr_length _ _ _ _ W1); assumption|]. split; [rewrite (wr_length _ _ _ _ W2); assumption|]. split.
        * intros y Hy. rewrite (rd_wr _ _ _ _ _ W1). destruct (Z.eqb_spec x y) as [<-|Hyx]; [exists v; split; [reflexivity|exact Tv]|]. apply G1. lia.
        * intros y Hy. rewrite (rd_wr _ _ _ _ _ W2). destruct (Z.eqb_spec x2 y) as [<-|Hyx]; [exists u; split; [reflexivity|exact Tu]|]. apply H1. lia. }
  destruct (HI n ltac:(lia)) as (g' & h' & E & L1 & L2 & G & H). exists g', h'. rewrite Z.sub_diag in H. repeat split; assumption.
Qed.

Lemma line_h0_ok h : Z.of_nat (length h) = N -> h_ok h 0 -> exists h', line_h0 k f h = Some h' /\ Z.of_nat (length h') = N /\ h_ok h' 0.
Proof using Hn Hk Hn1 HF HN.
  intros L H. unfold line_h0. rewrite <- Hn, (HF 0) by lia. cbn [option_bind].
  assert (exists u, (if (k =? 1) || (n =? 1) then Some (F 0) else option_map (fun p => Z.max p (F 0)) (rd h 1)) = Some u /\ top_of F 0 (bend k n 0) u) as (u & -> & Tu).
  { assert (blk k 0 = 0) as B0 by (unfold blk; rewrite Z.mod_0_l by lia; lia). destruct ((k =? 1) || (n =? 1)) eqn:E.
    - exists (F 0). split; [reflexivity|]. replace (bend k n 0) with (0 + 1); [apply top_one|]. unfold bend. rewrite B0. apply orb_prop in E. destruct E as [E|E]; apply Z.eqb_eq in E; lia.
    - apply orb_false_elim in E. destruct E as (E1 & E2). apply Z.eqb_neq in E1, E2. destruct (H 1 ltac:(lia)) as (u & -> & Tu). exists (Z.max u (F 0)). split; [reflexivity|]. rewrite Z.max_comm.
      assert (blk k 1 = 0) as B1 by (apply blk_eq; [lia|exists 0; lia|lia]). unfold bend in *. rewrite B0. rewrite B1 in Tu. apply (top_join F 0 (0 + 1) 1); [apply top_one|exact Tu|lia|lia|lia]. }
  cbn [option_bind]. destruct (wr_Some h 0 u ltac:(lia)) as (h' & W). exists h'. split; [exact W|]. split; [rewrite (wr_length _ _ _ _ W); assumption|].
  intros y Hy. rewrite (rd_wr _ _ _ _ _ W). destruct (Z.eqb_spec 0 y) as [<-|Hy0]; [exists u; split; [reflexivity|exact Tu]|]. apply H. lia.
Qed.

Definition h2_ok (h2 : list Z) (t : Z) : Prop := forall y, t <= y < n -> exists v, rd h2 y = Some v /\ top_of F y n v.

Lemma h2_step h2 x : Z.of_nat (length h2) = N -> 0 <= x < n - 1 -> h2_ok h2 (x + 1) ->
  exists a h2', rd h2 (x + 1) = Some a /\ wr h2 x (Z.max a (F x)) = Some h2' /\ Z.of_nat (length h2') = N /\ h2_ok h2' x.
Proof using HN HF.
  intros L Hx H. destruct (H (x + 1) ltac:(lia)) as (a & E & Ta). destruct (wr_Some h2 x (Z.max a (F x)) ltac:(lia)) as (h2' & W). exists a, h2'. split; [exact E|]. split; [exact W|].
  split; [rewrite (wr_length _ _ _ _ W); assumption|]. intros y Hy. rewrite (rd_wr _ _ _ _ _ W). destruct (Z.eqb_spec x y) as [<-|Hyx]; [|apply H; lia].
  exists (Z.max a (F x)). split; [reflexivity|]. rewrite Z.max_comm. apply (top_join F x (x + 1) (x + 1)); [apply top_one|exact Ta|lia|lia|lia].
Qed.

Lemma h2_down_ok m : forall lo h2, 0 < lo -> Z.of_nat m <= n - 1 -> n <= 2 ^ 63 -> (lo <= Z.of_nat m \/ 2 ^ 63 <= lo /\ 0 < Z.of_nat m) -> Z.of_nat (length h2) = N -> h2_ok h2 (Z.of_nat m) ->
  exists h2', h2_down m lo f h2 = Some h2' /\ Z.of_nat (length h2') = N /\ h2_ok h2' (Z.min lo (n - 1)) .
Proof using HF HN Hn1.
  change (2 ^ 63) with 9223372036854775808.
  induction m as [|m IH]; intros lo h2 Hlo Hm Hn63 Hc HL H2; [lia|]. cbn [h2_down]. change (2 ^ 64) with 18446744073709551616.
  replace (Z.of_nat (S m) - 1) with (Z.of_nat m) by lia. rewrite Z.mod_small by lia. destruct (Z.ltb_spec (Z.of_nat m) lo) as [E|E].
  - exists h2. split; [reflexivity|]. split; [assumption|]. intros y Hy. apply H2. lia.
  - destruct (h2_step h2 (Z.of_nat m) HL ltac:(lia) ltac:(replace (Z.of_nat m + 1) with (Z.of_nat (S m)) by lia; exact H2)) as (a & h2' & R & W & L' & H'). rewrite R. cbn [option_bind]. rewrite (HF (Z.of_nat m)) by lia. cbn [option_bind]. rewrite W. cbn [option_bind].
    apply IH; [lia|lia|lia|left; lia|assumption|assumption].
Qed.

(** The last write of [h2] at 0, which is of no use. *)
Lemma line_h2_ok ver h h2 : k < 2 ^ 62 -> n <= 2 ^ 62 -> 2 <= n -> n <> k -> Z.of_nat (length h) = N -> Z.of_nat (length h2) = N ->
  exists h2', line_h2 ver k f h h2 = Some h2' /\ Z.of_nat (length h2') = N /\ (k < n -> h2_ok h2' (n - k)).
Proof using Hn Hk Hn1 HF HN.
  change (2 ^ 62) with 4611686018427387904. intros Bk Bn N2 Nk L1 L2. unfold line_h2. rewrite <- Hn, (HF (n - 1)) by lia. cbn [option_bind]. destruct (wr_Some h2 (n - 1) (F (n - 1)) ltac:(lia)) as (h3 & W). rewrite W. cbn [option_bind].
  assert (Z.of_nat (length h3) = N) as L3 by (rewrite (wr_length _ _ _ _ W); assumption).
  assert (h2_ok h3 (n - 1)) as H3. { intros y Hy. rewrite (rd_wr _ _ _ _ _ W). replace (n - 1 =? y) with true by (symmetry; apply Z.eqb_eq; lia). exists (F (n - 1)). split; [reflexivity|]. replace y with (n - 1) by lia. pose proof (top_one F (n - 1)) as T. replace (n - 1 + 1) with n in T by lia. exact T. }
  assert (0 < (n - k) mod 2 ^ 64 /\ ((n - k) mod 2 ^ 64 <= n - 1 /\ (n - k) mod 2 ^ 64 = n - k \/ 2 ^ 63 <= (n - k) mod 2 ^ 64 /\ n < k)) as (P1 & P2).
  { change (2 ^ 64) with 18446744073709551616. change (2 ^ 63) with 9223372036854775808. destruct (Z.lt_ge_cases n k) as [C|C].
    - assert ((n - k) mod 18446744073709551616 = n - k + 18446744073709551616) as ->; [|lia]. symmetry. apply (Z.mod_unique_pos _ _ (-1)); lia.
    - rewrite Z.mod_small by lia. lia. }
  destruct (h2_down_ok (Z.to_nat (n - 1)) ((n - k) mod 2 ^ 64) h3 P1 ltac:(lia) ltac:(change (2 ^ 63) with 9223372036854775808; lia) ltac:(lia) L3 ltac:(rewrite Z2Nat.id by lia; exact H3)) as (h4 & E4 & L4 & H4).
  rewrite E4. cbn [option_bind]. assert (Z.of_nat (length (if ver then h else h4)) = N) as Lv by (destruct ver; assumption). destruct (rd_in_range (if ver then h else h4) 1 ltac:(lia)) as (a & ->). cbn [option_bind]. rewrite (HF 0) by lia. cbn [option_bind].
  destruct (wr_Some h4 0 (Z.max a (F 0)) ltac:(lia)) as (h5 & W5). exists h5. split; [exact W5|]. split; [rewrite (wr_length _ _ _ _ W5); assumption|]. intros C y Hy. rewrite (rd_wr _ _ _ _ _ W5). replace (0 =? y) with false by (symmetry; apply Z.eqb_neq; lia).
  apply H4. lia.
Qed.

Lemma h2_down_pos_ok m : forall lo h2, Z.of_nat m <= n - 1 -> Z.of_nat (length h2) = N -> h2_ok h2 (Z.of_nat m) ->
  exists h2', h2_down_pos m lo f h2 = Some h2' /\ Z.of_nat (length h2') = N /\ h2_ok h2' (Z.max 1 (Z.min lo (n - 1))).
Proof using HF HN Hn1.
  induction m as [|m IH]; intros lo h2 Hm HL H2.
  - exists h2. split; [cbn [h2_down_pos]; reflexivity|]. split; [assumption|]. intros y Hy. apply H2. lia.
  - cbn [h2_down_pos]. replace (Z.of_nat (S m) - 1) with (Z.of_nat m) by lia. destruct ((Z.of_nat m >? 0) && (Z.of_nat m >=? lo)) eqn:E; cbn [negb].
    + apply andb_prop in E. destruct E as (E1 & E2). apply Z.gtb_lt in E1. apply Z.geb_le in E2.
      destruct (h2_step h2 (Z.of_nat m) HL ltac:(lia) ltac:(replace (Z.of_nat m + 1) with (Z.of_nat (S m)) by lia; exact H2)) as (a & h2' & R & W & L' & H'). rewrite R. cbn [option_bind]. rewrite (HF (Z.of_nat m)) by lia. cbn [option_bind]. rewrite W. cbn [option_bind].
      apply IH; [lia|assumption|assumption].
    + exists h2. split; [reflexivity|]. split; [assumption|]. intros y Hy. apply H2. apply andb_false_elim in E. destruct E as [E|E]; [rewrite Z.gtb_ltb in E; apply Z.ltb_ge in E|rewrite Z.geb_leb in E; apply Z.leb_gt in E]; lia.
Qed.

Lemma line_h2_pos_ok h2 : k < 2 ^ 62 -> n <= 2 ^ 62 -> Z.of_nat (length h2) = N ->
  exists h2', line_h2_pos k f h2 = Some h2' /\ Z.of_nat (length h2') = N /\ (k < n -> h2_ok h2' (n - k)).
Proof using Hn Hk Hn1 HF HN.
  change (2 ^ 62) with 4611686018427387904. intros Bk Bn L2. unfold line_h2_pos. rewrite <- Hn, (HF (n - 1)) by lia. cbn [option_bind]. destruct (wr_Some h2 (n - 1) (F (n - 1)) ltac:(lia)) as (h3 & W). rewrite W. cbn [option_bind].
  assert (Z.of_nat (length h3) = N) as L3 by (rewrite (wr_length _ _ _ _ W); assumption).
  assert (h2_ok h3 (n - 1)) as H3. { intros y Hy. rewrite (rd_wr _ _ _ _ _ W). replace (n - 1 =? y) with true by (symmetry; apply Z.eqb_eq; lia). exists (F (n - 1)). split; [reflexivity|]. replace y with (n - 1) by lia. pose proof (top_one F (n - 1)) as T. replace (n - 1 + 1) with n in T by lia. exact T. }
  rewrite Z.geb_leb. destruct (Z.leb_spec 2 n) as [N2|N2]; [|exists h3; split; [reflexivity|split; [assumption|intros; lia]]].
  destruct (h2_down_pos_ok (Z.to_nat (n - 1)) ((n - k) mod 2 ^ 64) h3 ltac:(lia) L3 ltac:(rewrite Z2Nat.id by lia; exact H3)) as (h4 & E4 & L4 & H4).
  rewrite E4. cbn [option_bind]. destruct (rd_in_range h4 1 ltac:(lia)) as (a & ->). cbn [option_bind]. rewrite (HF 0) by lia. cbn [option_bind].
  destruct (wr_Some h4 0 (Z.max a (F 0)) ltac:(lia)) as (h5 & W5). exists h5. split; [exact W5|]. split; [rewrite (wr_length _ _ _ _ W5); assumption|]. intros C y Hy. rewrite (rd_wr _ _ _ _ _ W5). replace (0 =? y) with false by (symmetry; apply Z.eqb_neq; lia).
  apply H4. change (2 ^ 64) with 18446744073709551616. rewrite Z.mod_small by lia. lia.
Qed.

Lemma line_res_ok r g h h2 x : k = 2 * r + 1 -> 0 <= r -> g_ok g n -> h_ok h 0 -> (k < n -> h2_ok h2 (n - k)) -> 0 <= x < n ->
  exists v, line_res k n g h h2 x = Some v /\ top_of F (Z.max 0 (x - r)) (Z.min n (x + r + 1)) v.
Proof using Hk Hn1 HF.
  intros Ek Hr HG HH H2 Hx. unfold line_res. assert (k / 2 = r) as -> by (rewrite Ek, (Z.mul_comm 2 r); rewrite Z.div_add_l by lia; change (1 / 2) with 0; lia).
  assert (forall y, 0 <= y < k -> blk k y = 0) as B0 by (intros y Hy; apply blk_eq; [lia|exists 0; lia|lia]).
  assert (forall y e, 0 <= y < n -> y < k -> e = y + 1 -> exists v, rd g y = Some v /\ top_of F 0 e v) as HG0 by (intros y e Hy1 Hy2 ->; destruct (HG y Hy1) as (v & E & T); rewrite B0 in T by lia; exists v; split; assumption).
  destruct (Z.leb_spec n r) as [C1|C1].
  { destruct (HG0 (n - 1) n ltac:(lia) ltac:(lia) ltac:(lia)) as (v & E & T). exists v. split; [exact E|]. replace (Z.max 0 (x - r)) with 0 by lia. replace (Z.min n (x + r + 1)) with n by lia. exact T. }
  destruct (Z.leb_spec n k) as [C2|C2].
  - destruct (Z.ltb_spec x (n - r)) as [C3|C3].
    + destruct (HG0 (x + r) (x + r + 1) ltac:(lia) ltac:(lia) ltac:(lia)) as (v & E & T). exists v. split; [exact E|]. replace (Z.max 0 (x - r)) with 0 by lia. replace (Z.min n (x + r + 1)) with (x + r + 1) by lia. exact T.
    + destruct (Z.leb_spec x r) as [C4|C4].
      * destruct (HG0 (n - 1) n ltac:(lia) ltac:(lia) ltac:(lia)) as (v & E & T). exists v. split; [exact E|]. replace (Z.max 0 (x - r)) with 0 by lia. replace (Z.min n (x + r + 1)) with n by lia. exact T.
      * destruct (HH (x - r) ltac:(lia)) as (v & E & T). exists v. split; [exact E|]. unfold bend in T. rewrite B0 in T by lia. replace (Z.max 0 (x - r)) with (x - r) by lia. replace (Z.min n (x + r + 1)) with n by lia. replace (Z.min (0 + k) n) with n in T by lia. exact T.
  - destruct (Z.ltb_spec x (n - r)) as [C3|C3].
    + destruct (Z.ltb_spec x r) as [C4|C4].
      * destruct (HG0 (x + r) (x + r + 1) ltac:(lia) ltac:(lia) ltac:(lia)) as (v & E & T). exists v. split; [exact E|]. replace (Z.max 0 (x - r)) with 0 by lia. replace (Z.min n (x + r + 1)) with (x + r + 1) by lia. exact T.
      * destruct (HG (x + r) ltac:(lia)) as (u & -> & Tu). destruct (HH (x - r) ltac:(lia)) as (v & -> & Tv). cbn [option_bind option_map]. exists (Z.max u v). split; [reflexivity|].
        replace (Z.max 0 (x - r)) with (x - r) by lia. replace (Z.min n (x + r + 1)) with (x + r + 1) by lia. unfold bend in Tv. destruct (blk_le k (x - r) Hk ltac:(lia)) as (P1 & P2 & q & Q). rewrite Z.max_comm.
        destruct (Z.eq_dec (blk k (x - r)) (x - r)) as [E|E].
        -- assert (blk k (x + r) = x - r) as E' by (apply blk_eq; [lia|exists q; lia|lia]). rewrite E' in Tu. rewrite E in Tv. apply (top_join F (x - r) (Z.min (x - r + k) n) (x - r)); [exact Tv|exact Tu|lia|lia|lia].
        -- assert (blk k (x + r) = blk k (x - r) + k) as E' by (apply blk_eq; [lia|exists (q + 1); lia|lia]). rewrite E' in Tu.
           apply (top_join F (x - r) (Z.min (blk k (x - r) + k) n) (blk k (x - r) + k)); [exact Tv|exact Tu|lia|lia|lia].
    + destruct (H2 C2 (x - r) ltac:(lia)) as (v & E & T). exists v. split; [exact E|]. replace (Z.max 0 (x - r)) with (x - r) by lia. replace (Z.min n (x + r + 1)) with n by lia. exact T.
Qed.
End Line.

Definition buf_len (b : bufs) (N : Z) : Prop := let '(g, h, h2) := b in Z.of_nat (length g) = N /\ Z.of_nat (length h) = N /\ Z.of_nat (length h2) = N.

Lemma all_some_total {A B} (f : A -> option B) l : (forall x, In x l -> exists v, f x = Some v) -> exists vs, all_some (map f l) = Some vs /\ map f l = map Some vs.
Proof.
  induction l as [|x l IH]; intros H; [exists []; split; reflexivity|]. destruct (H x (or_introl eq_refl)) as (v & E). destruct IH as (vs & E1 & E2); [intros y Hy; apply H; right; exact Hy|].
  exists (v :: vs). cbn. rewrite E, E1, E2. split; reflexivity.
Qed.

(** [DilateLine] is right for every line; [DilateHorLine] and [DilateVerLine] for lines of at least two pixels whose length is not
    that of the segment. *)
Lemma dilate_values_ok kd r f (F : Z -> Z) b N :
  let n := Z.of_nat (length f) in
  0 <= r -> 2 * r + 1 < 2 ^ 62 -> 1 <= n <= 2 ^ 62 -> n <= N -> buf_len b N -> (forall i, 0 <= i < n -> rd f i = Some (F i)) ->
  (kd <> Any -> n <> 1 /\ n <> 2 * r + 1) ->
  exists res b', dilate_values kd (2 * r + 1) f b = Some (res, b') /\ buf_len b' N /\ length res = length f /\
    forall x, 0 <= x < n -> exists v, rd res x = Some v /\ top_of F (Z.max 0 (x - r)) (Z.min n (x + r + 1)) v.
Proof.
  intros n Hr Bk Bn HN HB HF HK. set (k := 2 * r + 1) in *. assert (0 < k) as Hk by lia. destruct b as ((g, h), h2). destruct HB as (Lg & Lh & Lh2). unfold dilate_values.
  destruct (line_gh_ok k f F n N eq_refl Hk ltac:(lia) HF HN g h Lg Lh) as (g' & h' & -> & Lg' & Lh' & HG & HH). cbn [option_bind].
  destruct (line_h0_ok k f F n N eq_refl Hk ltac:(lia) HF HN h' Lh' HH) as (h3 & -> & Lh3 & HH3). cbn [option_bind].
  assert (exists h4, match kd with Hor => line_h2 false k f h3 h2 | Ver => line_h2 true k f h3 h2 | Any => line_h2_pos k f h2 end = Some h4 /\ Z.of_nat (length h4) = N /\ (k < n -> h2_ok F n h4 (n - k))) as (h4 & -> & Lh4 & HH4).
  { destruct kd.
    - destruct (HK ltac:(discriminate)) as (K1 & K2). apply (line_h2_ok k f F n N eq_refl Hk ltac:(lia) HF HN); try assumption; lia.
    - destruct (HK ltac:(discriminate)) as (K1 & K2). apply (line_h2_ok k f F n N eq_refl Hk ltac:(lia) HF HN); try assumption; lia.
    - apply (line_h2_pos_ok k f F n N eq_refl Hk ltac:(lia) HF HN); try assumption; lia. }
  cbn [option_bind]. assert (forall x, 0 <= x < n -> exists v, line_res k n g' h3 h4 x = Some v /\ top_of F (Z.max 0 (x - r)) (Z.min n (x + r + 1)) v) as HR by (intros x Hx; apply (line_res_ok k f F n Hk ltac:(lia) HF r); assumption || reflexivity || lia).
  destruct (all_some_total (line_res k n g' h3 h4) (zseq n)) as (res & E1 & E2). { intros x Hx. apply zseq_In in Hx. destruct (HR x Hx) as (v & E & _). exists v. exact E. }
  subst n. rewrite E1. cbn [option_bind]. exists res, (g', h3, h4). split; [reflexivity|]. split; [repeat split; assumption|].
  assert (length res = length f) as LR. { apply (f_equal (@length _)) in E2. rewrite !map_length, zseq_length, Nat2Z.id in E2. lia. }
  split; [exact LR|]. intros x Hx. destruct (HR x Hx) as (v & E & T). exists v. split; [|exact T]. apply (f_equal (fun l => rd l x)) in E2. rewrite !rd_map, rd_zseq in E2 by assumption. cbn [option_map] in E2. rewrite E in E2.
  destruct (rd res x); cbn in E2; congruence.
Qed.
