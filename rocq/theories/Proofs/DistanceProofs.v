(** Proofs on the distance functions: passes along lines. *)
From Verif Require Export Spec.DistanceSpec Proofs.ImageFacts Proofs.LabelProofs.

Notation get a p := (znth 0 a p) (only parsing).

(** ** Loops *)

Lemma fold_up {S} (f : S -> Z -> option S) (P : Z -> S -> Prop) a n st :
  0 <= n -> P a st -> (forall k s, a <= k < a + n -> P k s -> exists s', f s k = Some s' /\ P (k + 1) s') ->
  exists s', fold_opt f (zrange a n) st = Some s' /\ P (a + n) s'.
Proof.
  intros Hn. revert n Hn st. apply (natlike_ind (fun n => forall st, P a st ->
    (forall k s, a <= k < a + n -> P k s -> exists s', f s k = Some s' /\ P (k + 1) s') ->
    exists s', fold_opt f (zrange a n) st = Some s' /\ P (a + n) s')).
  - intros st H _. exists st. rewrite zrange_nil, Z.add_0_r by lia. split; [reflexivity|exact H].
  - intros n Hn IH st H0 Hs. rewrite <- Z.add_1_r, zrange_snoc, fold_opt_app by lia.
    destruct (IH st H0) as (s1 & E1 & P1). { intros k s Hk. apply Hs. lia. }
    rewrite E1. cbn [option_bind fold_opt]. destruct (Hs (a + n) s1 ltac:(lia) P1) as (s2 & E2 & P2).
    exists s2. rewrite E2. split; [reflexivity|]. replace (a + (n + 1)) with (a + n + 1) by lia. exact P2.
Qed.

Lemma fold_down {S} (f : S -> Z -> option S) (P : Z -> S -> Prop) n st :
  0 <= n -> P n st -> (forall k s, 0 <= k < n -> P (k + 1) s -> exists s', f s k = Some s' /\ P k s') ->
  exists s', fold_opt f (rev (zseq n)) st = Some s' /\ P 0 s'.
Proof.
  intros Hn. revert n Hn st. apply (natlike_ind (fun n => forall st, P n st ->
    (forall k s, 0 <= k < n -> P (k + 1) s -> exists s', f s k = Some s' /\ P k s') ->
    exists s', fold_opt f (rev (zseq n)) st = Some s' /\ P 0 s')).
  - intros st H _. exists st. split; [reflexivity|exact H].
  - intros n Hn IH st H0 Hs. rewrite <- Z.add_1_r in *. rewrite zseq_succ, rev_app_distr by lia. cbn [rev app fold_opt].
    destruct (Hs n st ltac:(lia) H0) as (s1 & E1 & P1). rewrite E1. apply IH; [exact P1|]. intros k s Hk. apply Hs. lia.
Qed.

(** Steps on disjoint cells. *)
Lemma fold_disjoint {C S} (arr : S -> list Z) (Inv : S -> Prop) (f : S -> C -> option S) (supp : C -> Z -> Prop)
    (Post : C -> list Z -> list Z -> Prop) (L : list C) :
  NoDup L -> (forall c d p, In c L -> In d L -> supp c p -> supp d p -> c = d) ->
  (forall st c, Inv st -> In c L -> exists st', f st c = Some st' /\ Inv st' /\
    (forall p, ~ supp c p -> get (arr st') p = get (arr st) p) /\ Post c (arr st) (arr st')) ->
  (forall c a a' b b', (forall p, supp c p -> get a p = get b p) -> (forall p, supp c p -> get a' p = get b' p) -> Post c a a' -> Post c b b') ->
  forall st, Inv st -> exists st', fold_opt f L st = Some st' /\ Inv st' /\
    (forall p, (forall c, In c L -> ~ supp c p) -> get (arr st') p = get (arr st) p) /\
    (forall c, In c L -> Post c (arr st) (arr st')).
Proof.
  intros ND HD Hf HP. revert ND HD Hf. induction L as [|c L IH]; intros ND HD Hf st Hst.
  - exists st. repeat split; [exact Hst|]. intros c [].
  - inversion_clear ND as [|? ? Hc ND']. destruct (Hf st c Hst (or_introl eq_refl)) as (s1 & E1 & I1 & U1 & Q1).
    destruct (IH ND') with (st := s1) as (s2 & E2 & I2 & U2 & Q2); [|intros; apply Hf; [assumption|right; assumption]|exact I1|].
    { intros c' d' p H1 H2. apply HD; right; assumption. }
    exists s2. cbn [fold_opt]. rewrite E1. split; [exact E2|]. split; [exact I2|]. split.
    + intros p Hp. rewrite U2, U1; [reflexivity|apply Hp; left; reflexivity|]. intros d Hd. apply Hp. right. exact Hd.
    + intros d [<-|Hd].
      * apply (HP c (arr st) (arr s1)); [reflexivity| |exact Q1]. intros p Hp. symmetry. apply U2. intros d Hd Hdp.
        apply Hc. rewrite (HD c d p (or_introl eq_refl) (or_intror Hd) Hp Hdp). exact Hd.
      * apply (HP d (arr s1) (arr s2)); [|reflexivity|apply Q2; exact Hd]. intros p Hp. apply U1. intros Hcp.
        apply Hc. rewrite (HD c d p (or_introl eq_refl) (or_intror Hd) Hcp Hp). exact Hd.
Qed.

(** ** Values *)

Lemma tmax_pos t : 127 <= tmax t.
Proof. destruct t; cbv; discriminate. Qed.
Lemma wrap_pos t v : 0 <= v <= tmax t -> wrap t v = v.
Proof. intros H. apply wrap_id. unfold inty. destruct t; cbn in *; lia. Qed.
Lemma plus1_lt t v : 0 <= v < tmax t -> plus1 t v = v + 1.
Proof. intros H. destruct t; cbn in *; try reflexivity. apply Z.mod_small. lia. Qed.
Lemma plus1_narrow t v : t <> UINT32 -> plus1 t v = v + 1.
Proof. intros H. destruct t; cbn; congruence. Qed.

Definition step_ok (M : Z) (step : Z -> Z -> Z) : Prop := forall a b, 0 <= a <= M -> 0 <= b <= M -> step a b = Z.min a (b + 1).
Definition next_ok (M : Z) (next : Z -> Z) : Prop := forall b, 0 <= b <= M -> next b = Z.min M (b + 1).

Lemma row_step_ok t : step_ok (tmax t) (row_step t).
Proof.
  intros a b Ha Hb. unfold row_step. destruct (Z.eqb_spec a 0) as [->|N]; cbn [negb andb]; [lia|].
  destruct (Z.gtb_spec a b); [|lia]. rewrite plus1_lt, wrap_pos; lia.
Qed.
Lemma cross_next_ok t : next_ok (tmax t) (cross_next t).
Proof. intros b Hb. unfold cross_next. destruct (Z.ltb_spec b (tmax t)); [|lia]. rewrite plus1_lt, wrap_pos; lia. Qed.
Lemma cross_back_ok t : step_ok (tmax t) (cross_back t).
Proof.
  intros a b Ha Hb. unfold cross_back. destruct (Z.ltb_spec b (tmax t)) as [L|L].
  - rewrite plus1_lt, wrap_pos by lia. destruct (Z.ltb_spec (b + 1) a); lia.
  - destruct (Z.ltb_spec b a); lia.
Qed.
Lemma cross3d_next_ok t : t <> UINT32 -> next_ok (tmax t) (cross3d_next t).
Proof. intros N b Hb. unfold cross3d_next. rewrite plus1_narrow by exact N. destruct (Z.gtb_spec (b + 1) (tmax t)); rewrite wrap_pos; lia. Qed.
Lemma cross3d_back_ok t : t <> UINT32 -> step_ok (tmax t) (cross3d_back t).
Proof.
  intros N a b Ha Hb. unfold cross3d_back. rewrite plus1_narrow by exact N. destruct (Z.gtb_spec (b + 1) (tmax t)).
  - destruct (Z.ltb_spec (tmax t) a); lia.
  - rewrite wrap_pos by lia. destruct (Z.ltb_spec (b + 1) a); lia.
Qed.
Lemma euclid_back_ok t : t <> UINT32 -> step_ok (tmax t) (euclid_back t).
Proof.
  intros N a b Ha Hb. unfold euclid_back. rewrite plus1_narrow by exact N. destruct (Z.ltb_spec b a); [|lia].
  destruct (Z.ltb_spec (b + 1) (tmax t)); rewrite wrap_pos; lia.
Qed.

(** ** Lines *)

(** An array of [n] values, those at the places [P] being between 0 and [M]. *)
Definition bounded (P : Z -> Prop) (n M : Z) (a : list Z) : Prop := Z.of_nat (length a) = n /\ forall p, P p -> 0 <= get a p <= M.

Lemma bounded_wr P n M a p v : bounded P n M a -> 0 <= p < n -> 0 <= v <= M ->
  exists a', wr a p v = Some a' /\ bounded P n M a' /\ get a' p = v /\ forall q, q <> p -> get a' q = get a q.
Proof.
  intros [HL HB] Hp Hv. destruct (wr_Some a p v ltac:(lia)) as [a' E]. exists a'. split; [exact E|].
  assert (G : forall q, get a' q = if p =? q then v else get a q).
  { intros q. unfold znth. rewrite (rd_wr _ _ _ _ _ E). destruct (p =? q); reflexivity. }
  split; [split|split].
  - rewrite (wr_length _ _ _ _ E). exact HL.
  - intros q Hq. rewrite G. destruct (p =? q); [lia|]. apply HB. exact Hq.
  - rewrite G, Z.eqb_refl. reflexivity.
  - intros q Hq. rewrite G. destruct (Z.eqb_spec p q); congruence.
Qed.

Lemma update_spec P n M step a p q : bounded P n M a -> step_ok M step -> 0 <= p < n -> 0 <= q < n -> P p -> P q ->
  exists a', update step p q a = Some a' /\ bounded P n M a' /\ get a' p = Z.min (get a p) (get a q + 1) /\ forall r, r <> p -> get a' r = get a r.
Proof.
  intros HB HS Hp Hq Pp Pq. assert (HL := proj1 HB). unfold update. rewrite (rd_znth 0 a p), (rd_znth 0 a q) by lia. cbn [option_bind].
  pose proof (proj2 HB p Pp). pose proof (proj2 HB q Pq). rewrite HS by assumption.
  apply bounded_wr; [exact HB|exact Hp|lia].
Qed.

Section LinePass.
  Variables (N M n : Z) (step : Z -> Z -> Z) (pos : Z -> Z).
  Hypothesis Hstep : step_ok M step.
  Hypothesis Hpos : forall i, 0 <= i < n -> 0 <= pos i < N.
  Hypothesis Hinj : forall i j, 0 <= i < n -> 0 <= j < n -> pos i = pos j -> i = j.

  Definition online p := exists i, 0 <= i < n /\ p = pos i.
  Lemma on i : 0 <= i < n -> online (pos i).
  Proof. exists i. split; [assumption|reflexivity]. Qed.

  (** After the backward loop, from values [g]. *)
  Lemma sweep_back_spec a : bounded online N M a ->
    exists a', sweep_back step pos n a = Some a' /\ bounded online N M a' /\ (forall p, ~ online p -> get a' p = get a p) /\
      forall i, 0 <= i < n -> least (fun v => exists j, i <= j < n /\ v = get a (pos j) + (j - i)) (get a' (pos i)).
  Proof.
    intros HB. unfold sweep_back. destruct (Z.le_gt_cases n 0) as [Hn|Hn].
    { rewrite zseq_0 by lia. cbn. exists a. split; [reflexivity|]. split; [exact HB|]. split; [reflexivity|]. intros; lia. }
    destruct (fold_down (fun out i => update step (pos i) (pos (i + 1)) out)
      (fun k b => bounded online N M b /\ (forall p, ~ online p -> get b p = get a p) /\
        (forall i, 0 <= i < k -> get b (pos i) = get a (pos i)) /\
        (forall i, k <= i < n -> least (fun v => exists j, i <= j < n /\ v = get a (pos j) + (j - i)) (get b (pos i)))) (n - 1) a)
      as (a' & E & HB' & U & _ & Q); [lia| | |].
    - split; [exact HB|]. split; [reflexivity|]. split; [reflexivity|]. intros i Hi. replace i with (n - 1) by lia. split.
      + exists (n - 1). split; [lia|]. lia.
      + intros u (j & Hj & ->). replace j with (n - 1) by lia. lia.
    - intros k b Hk (B1 & U1 & S1 & Q1).
      destruct (update_spec online N M step b (pos k) (pos (k + 1)) B1 Hstep (Hpos k ltac:(lia)) (Hpos (k + 1) ltac:(lia)) (on k ltac:(lia)) (on (k + 1) ltac:(lia))) as (b' & E & B2 & G & U2).
      exists b'. split; [exact E|]. split; [exact B2|]. split; [|split].
      + intros p Hp. rewrite U2; [apply U1; exact Hp|]. intros ->. apply Hp. exists k. split; [lia|reflexivity].
      + intros i Hi. rewrite U2; [apply S1; lia|]. intros Ep. apply Hinj in Ep; lia.
      + intros i Hi. destruct (Z.eq_dec i k) as [->|Ni].
        * rewrite G, S1 by lia. destruct (Q1 (k + 1) ltac:(lia)) as [(j & Hj & Ej) L1]. split.
          -- destruct (Z.min_spec (get a (pos k)) (get b (pos (k + 1)) + 1)) as [[_ ->]|[_ ->]].
             ++ exists k. split; [lia|]. lia.
             ++ exists j. split; [lia|]. lia.
          -- intros u (j' & Hj' & ->). destruct (Z.eq_dec j' k) as [->|Nj]; [lia|].
             specialize (L1 (get a (pos j') + (j' - (k + 1))) ltac:(exists j'; split; [lia|reflexivity])). lia.
        * rewrite U2; [apply Q1; lia|]. intros Ep. apply Hinj in Ep; lia.
    - exists a'. split; [exact E|]. split; [exact HB'|]. split; [exact U|]. exact Q.
  Qed.

  (** The two loops. *)
  Lemma sweep_spec a : bounded online N M a ->
    exists a', sweep step pos n a = Some a' /\ bounded online N M a' /\ (forall p, ~ online p -> get a' p = get a p) /\
      forall i, 0 <= i < n -> least (fun v => exists j, 0 <= j < n /\ v = get a (pos j) + Z.abs (i - j)) (get a' (pos i)).
  Proof.
    intros HB. unfold sweep. destruct (Z.le_gt_cases n 0) as [Hn|Hn].
    { rewrite zrange_nil by lia. cbn [fold_opt option_bind].
      destruct (sweep_back_spec a HB) as (a' & E & HB' & U & _). exists a'. split; [exact E|]. split; [exact HB'|]. split; [exact U|]. intros; lia. }
    destruct (fold_up (fun out i => update step (pos i) (pos (i - 1)) out)
      (fun k b => bounded online N M b /\ (forall p, ~ online p -> get b p = get a p) /\
        (forall i, k <= i < n -> get b (pos i) = get a (pos i)) /\
        (forall i, 0 <= i < k -> least (fun v => exists j, 0 <= j <= i /\ v = get a (pos j) + (i - j)) (get b (pos i)))) 1 (n - 1) a)
      as (b & E & HB1 & U1 & _ & Q1); [lia| | |].
    - split; [exact HB|]. split; [reflexivity|]. split; [reflexivity|]. intros i Hi. replace i with 0 by lia. split.
      + exists 0. split; lia.
      + intros u (j & Hj & ->). replace j with 0 by lia. lia.
    - intros k b Hk (B1 & U1 & S1 & Q1).
      destruct (update_spec online N M step b (pos k) (pos (k - 1)) B1 Hstep (Hpos k ltac:(lia)) (Hpos (k - 1) ltac:(lia)) (on k ltac:(lia)) (on (k - 1) ltac:(lia))) as (b' & E & B2 & G & U2).
      exists b'. split; [exact E|]. split; [exact B2|]. split; [|split].
      + intros p Hp. rewrite U2; [apply U1; exact Hp|]. intros ->. apply Hp. exists k. split; [lia|reflexivity].
      + intros i Hi. rewrite U2; [apply S1; lia|]. intros Ep. apply Hinj in Ep; lia.
      + intros i Hi. destruct (Z.eq_dec i k) as [->|Ni].
        * rewrite G, S1 by lia. destruct (Q1 (k - 1) ltac:(lia)) as [(j & Hj & Ej) L1]. split.
          -- destruct (Z.min_spec (get a (pos k)) (get b (pos (k - 1)) + 1)) as [[_ ->]|[_ ->]].
             ++ exists k. split; [lia|]. lia.
             ++ exists j. split; [lia|]. lia.
          -- intros u (j' & Hj' & ->). destruct (Z.eq_dec j' k) as [->|Nj]; [lia|].
             specialize (L1 (get a (pos j') + (k - 1 - j')) ltac:(exists j'; split; [lia|reflexivity])). lia.
        * rewrite U2; [apply Q1; lia|]. intros Ep. apply Hinj in Ep; lia.
    - rewrite E. cbn [option_bind]. replace (1 + (n - 1)) with n in Q1 by lia.
      destruct (sweep_back_spec b HB1) as (a' & E' & HB' & U' & Q'). exists a'. split; [exact E'|]. split; [exact HB'|]. split.
      { intros p Hp. rewrite U', U1 by exact Hp. reflexivity. }
      intros i Hi. destruct (Q' i Hi) as [(j & Hj & Ej) L]. destruct (Q1 j ltac:(lia)) as [(j1 & Hj1 & Ej1) L1]. split.
      + (* attained: at j1 *)
        rewrite Ej, Ej1. exists j1. split; [lia|].
        assert (get a' (pos i) <= get a (pos j1) + Z.abs (i - j1)).
        { destruct (Z.le_gt_cases j1 i).
          - destruct (Q1 i ltac:(lia)) as [_ Li]. specialize (Li (get a (pos j1) + (i - j1)) ltac:(exists j1; split; [lia|reflexivity])).
            specialize (L (get b (pos i) + (i - i)) ltac:(exists i; split; [lia|reflexivity])). lia.
          - destruct (Q1 j1 ltac:(lia)) as [_ Lj]. specialize (Lj (get a (pos j1) + (j1 - j1)) ltac:(exists j1; split; [lia|reflexivity])).
            specialize (L (get b (pos j1) + (j1 - i)) ltac:(exists j1; split; [lia|reflexivity])). lia. }
        lia.
      + intros u (j2 & Hj2 & ->). destruct (Z.le_gt_cases j2 i).
        * destruct (Q1 i ltac:(lia)) as [_ Li]. specialize (Li (get a (pos j2) + (i - j2)) ltac:(exists j2; split; [lia|reflexivity])).
          specialize (L (get b (pos i) + (i - i)) ltac:(exists i; split; [lia|reflexivity])). lia.
        * destruct (Q1 j2 ltac:(lia)) as [_ Lj]. specialize (Lj (get a (pos j2) + (j2 - j2)) ltac:(exists j2; split; [lia|reflexivity])).
          specialize (L (get b (pos j2) + (j2 - i)) ltac:(exists j2; split; [lia|reflexivity])). lia.
  Qed.
End LinePass.

(** ** Columns *)

Section Column.
  Variables (t : ity) (N w h offset : Z) (next : Z -> Z) (back : Z -> Z -> Z) (alias : bool) (px : list Z).
  Hypothesis Hnext : next_ok (tmax t) next.
  Hypothesis Hback : step_ok (tmax t) back.
  Hypothesis Hw : 0 < w.
  Hypothesis Hh : 0 < h.
  Hypothesis Hoff : 0 <= offset /\ offset + (h - 1) * w < N.
  Hypothesis Hpx : Z.of_nat (length px) = N.
  Let pos y := offset + y * w.
  Let M := tmax t.

  Lemma pos_range i : 0 <= i < h -> 0 <= pos i < N.
  Proof. intros. unfold pos. split; nia. Qed.
  Lemma pos_inj i j : pos i = pos j -> i = j.
  Proof. unfold pos. intros. nia. Qed.

  Definition input (a : list Z) := if alias then a else px.

  Lemma column_down_spec a : Z.of_nat (length a) = N ->
    exists a', column_down t next alias px w h offset a = Some a' /\ bounded (online h pos) N M a' /\
      (forall p, ~ online h pos p -> get a' p = get a p) /\
      forall i, 0 <= i < h -> least (fun v => v = M \/ exists j, 0 <= j <= i /\ get (input a) (pos j) = 0 /\ v = i - j) (get a' (pos i)).
  Proof.
    intros HL. pose proof (tmax_pos t) as HM. unfold column_down.
    assert (RI : forall b q, Z.of_nat (length b) = N -> 0 <= q < N -> rd (if alias then b else px) q = Some (get (input b) q)).
    { intros b q Hb Hq. unfold input. destruct alias; apply rd_znth; lia. }
    assert (R0 : 0 <= offset < N) by (pose proof (pos_range 0 ltac:(lia)); unfold pos in *; lia).
    rewrite RI by assumption. cbn [option_bind].
    set (v0 := if get (input a) offset =? 0 then 0 else tmax t).
    destruct (wr_Some a offset v0 ltac:(lia)) as [a0 E0]. rewrite E0. cbn [option_bind].
    assert (G0 : forall q, get a0 q = if offset =? q then v0 else get a q).
    { intros q. unfold znth. rewrite (rd_wr _ _ _ _ _ E0). destruct (offset =? q); reflexivity. }
    assert (L0 : Z.of_nat (length a0) = N) by (rewrite (wr_length _ _ _ _ E0); exact HL).
    destruct (fold_up (fun out y => option_bind (rd (if alias then out else px) (offset + y * w)) (fun v =>
       if v =? 0 then wr out (offset + y * w) 0
       else option_bind (rd out (offset + (y - 1) * w)) (fun b => wr out (offset + y * w) (next b))))
      (fun k b => Z.of_nat (length b) = N /\ (forall p, ~ online h pos p -> get b p = get a p) /\
        (forall i, k <= i < h -> get b (pos i) = get a (pos i)) /\
        (forall i, 0 <= i < k -> least (fun v => v = M \/ exists j, 0 <= j <= i /\ get (input a) (pos j) = 0 /\ v = i - j) (get b (pos i)))) 1 (h - 1) a0)
      as (b & E & L1 & U1 & _ & Q1); [lia| | |].
    - split; [exact L0|]. split; [|split].
      + intros p Hp. rewrite G0. destruct (Z.eqb_spec offset p) as [<-|]; [|reflexivity]. exfalso. apply Hp. exists 0. unfold pos. lia.
      + intros i Hi. rewrite G0. unfold pos. destruct (Z.eqb_spec offset (offset + i * w)); [nia|reflexivity].
      + intros i Hi. replace i with 0 by lia. rewrite G0. replace (pos 0) with offset by (unfold pos; lia). rewrite Z.eqb_refl. unfold v0.
        destruct (Z.eqb_spec (get (input a) offset) 0) as [Ez|Nz]; split.
        * right. exists 0. replace (pos 0) with offset by (unfold pos; lia). split; [lia|]. split; [exact Ez|reflexivity].
        * intros u [->|(j & Hj & _ & ->)]; [unfold M; lia|lia].
        * left. reflexivity.
        * intros u [->|(j & Hj & Zj & ->)]; [reflexivity|]. exfalso. apply Nz. replace j with 0 in Zj by lia.
          replace (pos 0) with offset in Zj by (unfold pos; lia). exact Zj.
    - intros k b Hk (L1 & U1 & S1 & Q1). fold (pos k). fold (pos (k - 1)).
      assert (EI : get (input b) (pos k) = get (input a) (pos k)).
      { unfold input. destruct alias; [|reflexivity]. apply S1. lia. }
      rewrite RI by (try assumption; apply pos_range; lia). cbn [option_bind]. rewrite EI.
      assert (FIN : forall v, (least (fun v => v = M \/ exists j, 0 <= j <= k /\ get (input a) (pos j) = 0 /\ v = k - j) v) ->
        exists b', wr b (pos k) v = Some b' /\ Z.of_nat (length b') = N /\ (forall p, ~ online h pos p -> get b' p = get a p) /\
        (forall i, k + 1 <= i < h -> get b' (pos i) = get a (pos i)) /\
        (forall i, 0 <= i < k + 1 -> least (fun v => v = M \/ exists j, 0 <= j <= i /\ get (input a) (pos j) = 0 /\ v = i - j) (get b' (pos i)))).
      { intros v Hv. destruct (wr_Some b (pos k) v) as [b' Eb]. { pose proof (pos_range k ltac:(lia)). lia. }
        assert (Gb : forall q, get b' q = if pos k =? q then v else get b q).
        { intros q. unfold znth. rewrite (rd_wr _ _ _ _ _ Eb). destruct (pos k =? q); reflexivity. }
        exists b'. split; [exact Eb|]. split; [rewrite (wr_length _ _ _ _ Eb); exact L1|]. split; [|split].
        - intros p Hp. rewrite Gb. destruct (Z.eqb_spec (pos k) p) as [<-|]; [|apply U1; exact Hp]. exfalso. apply Hp. exists k. split; [lia|reflexivity].
        - intros i Hi. rewrite Gb. destruct (Z.eqb_spec (pos k) (pos i)) as [Ep|]; [apply pos_inj in Ep; lia|]. apply S1. lia.
        - intros i Hi. rewrite Gb. destruct (Z.eqb_spec (pos k) (pos i)) as [Ep|Np].
          + apply pos_inj in Ep. subst i. exact Hv.
          + apply Q1. destruct (Z.eq_dec i k) as [->|]; [congruence|lia]. }
      destruct (Z.eqb_spec (get (input a) (pos k)) 0) as [Ez|Nz].
      + apply FIN. split; [right; exists k; repeat split; [lia|lia|exact Ez|lia]|]. intros u [->|(j & Hj & _ & ->)]; [unfold M; lia|lia].
      + rewrite (rd_znth 0 b (pos (k - 1))) by (pose proof (pos_range (k - 1) ltac:(lia)); lia). cbn [option_bind]. apply FIN.
        destruct (Q1 (k - 1) ltac:(lia)) as [HA HLe].
        assert (Bd : 0 <= get b (pos (k - 1)) <= M).
        { split; [|apply HLe; left; reflexivity]. destruct HA as [->|(j & Hj & _ & ->)]; [unfold M; lia|lia]. }
        rewrite Hnext by exact Bd. fold M. split.
        * destruct (Z.min_spec M (get b (pos (k - 1)) + 1)) as [[_ ->]|[Hm ->]]; [left; reflexivity|].
          destruct HA as [HA|(j & Hj & Zj & Ej)]; [exfalso; lia|]. right. exists j. repeat split; (lia || exact Zj).
        * intros u [->|(j & Hj & Zj & ->)]; [lia|]. destruct (Z.eq_dec j k) as [->|Nj]; [congruence|].
          specialize (HLe (k - 1 - j) ltac:(right; exists j; repeat split; (lia || exact Zj))). lia.
    - exists b. split; [exact E|]. replace (1 + (h - 1)) with h in Q1 by lia. split; [split; [exact L1|]|split; [exact U1|exact Q1]].
      intros p (i & Hi & ->). destruct (Q1 i Hi) as [HA HLe]. split; [|apply HLe; left; reflexivity].
      destruct HA as [->|(j & Hj & _ & ->)]; [unfold M; lia|lia].
  Qed.

  Lemma column_spec a : Z.of_nat (length a) = N ->
    exists a', column t next back alias px w h offset a = Some a' /\ Z.of_nat (length a') = N /\
      (forall p, ~ online h pos p -> get a' p = get a p) /\
      forall i, 0 <= i < h -> least (fun v => v = M \/ exists j, 0 <= j < h /\ get (input a) (pos j) = 0 /\ v = Z.abs (i - j)) (get a' (pos i)).
  Proof.
    intros HL. unfold column. destruct (column_down_spec a HL) as (b & -> & HB & U & Q). cbn [option_bind].
    destruct (sweep_back_spec N M h back pos Hback pos_range ltac:(intros; apply pos_inj; assumption) b HB) as (a' & E & HB' & U' & Q').
    exists a'. split; [exact E|]. split; [apply HB'|]. split.
    { intros p Hp. rewrite U', U by exact Hp. reflexivity. }
    intros i Hi. destruct (Q' i Hi) as [(j & Hj & Ej) L]. destruct (Q j ltac:(lia)) as [HA Lj]. destruct (Q i Hi) as [_ Li].
    assert (LM : get a' (pos i) <= M).
    { specialize (L (get b (pos i) + (i - i)) ltac:(exists i; split; [lia|reflexivity])). specialize (Li M ltac:(left; reflexivity)). lia. }
    assert (LL : forall j, 0 <= j < h -> get (input a) (pos j) = 0 -> get a' (pos i) <= Z.abs (i - j)).
    { intros j2 Hj2 Z2. destruct (Z.le_gt_cases j2 i).
      - specialize (L (get b (pos i) + (i - i)) ltac:(exists i; split; [lia|reflexivity])).
        specialize (Li (i - j2) ltac:(right; exists j2; repeat split; (lia || exact Z2))). lia.
      - specialize (L (get b (pos j2) + (j2 - i)) ltac:(exists j2; split; [lia|reflexivity])).
        destruct (Q j2 ltac:(lia)) as [_ L2]. specialize (L2 (j2 - j2) ltac:(right; exists j2; repeat split; (lia || exact Z2))). lia. }
    split.
    - destruct HA as [HA|(j1 & Hj1 & Z1 & E1)].
      + left. lia.
      + right. exists j1. split; [lia|]. split; [exact Z1|]. specialize (LL j1 ltac:(lia) Z1). lia.
    - intros u [->|(j2 & Hj2 & Z2 & ->)]; [exact LM|apply LL; assumption].
  Qed.
End Column.
