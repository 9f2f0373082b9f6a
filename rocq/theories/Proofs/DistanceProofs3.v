(** Proofs on the distance functions: lower envelopes. *)
From Verif Require Export Proofs.DistanceProofs2.

Lemma get_wr (a : list Z) p v a' : wr a p v = Some a' -> forall q, get a' q = if p =? q then v else get a q.
Proof. intros E q. unfold znth. rewrite (rd_wr _ _ _ _ _ E). destruct (p =? q); reflexivity. Qed.

(** [lia] without the quantified hypotheses. *)
Ltac la := repeat match goal with H : forall _, _ |- _ => clear H end; lia.

Section Envelope.
  Variables (n N K : Z) (F : Z -> Z -> Z) (f sep val : Z -> Z -> option Z) (pos : Z -> Z).
  Hypothesis Hn : 0 < n.
  Hypothesis HK : n <= K.
  Hypothesis Hf : forall x i, 0 <= x < n -> 0 <= i < n -> f x i = Some (F x i).
  Hypothesis Hmono : forall i u x y, 0 <= i < u -> u < n -> 0 <= x <= y -> y < n -> F x u < F x i -> F y u < F y i.
  Hypothesis Hsep : forall i u y, 0 <= i < u -> u < n -> 0 <= y < n -> F y i <= F y u ->
    exists w, sep i u = Some w /\ forall x, 0 <= x < n -> (F x i <= F x u <-> x <= w).
  Hypothesis Hval : forall x i, 0 <= x < n -> 0 <= i < n -> (forall j, 0 <= j < n -> F x i <= F x j) -> val x i = Some (F x i).
  Hypothesis Hpos : forall i, 0 <= i < n -> 0 <= pos i < N.
  Hypothesis Hinj : forall i j, 0 <= i < n -> 0 <= j < n -> pos i = pos j -> i = j.

  (** The curves 0 .. k-1 have been considered: minimizer number j is the lowest from place number j to the next one, or to [B]. *)
  Definition env (k B : Z) (s t : list Z) (q : Z) : Prop :=
    Z.of_nat (length s) = K /\ Z.of_nat (length t) = K /\ get t 0 = 0 /\
    (forall j, 0 <= j <= q -> 0 <= get s j < k /\ 0 <= get t j < B) /\
    (forall i j, 0 <= i < j -> j <= q -> get t i < get t j) /\
    (forall j x, 0 <= j <= q -> get t j <= x < (if j =? q then B else get t (j + 1)) -> forall i, 0 <= i < k -> F x (get s j) <= F x i).

  Lemma pop_spec k s t : 0 < k < n -> forall m B, Z.of_nat m <= k -> env k B s t (Z.of_nat m - 1) -> 0 <= B <= n -> (m = O -> B = 0) ->
    (forall x i, B <= x < n -> 0 <= i < k -> F x k < F x i) ->
    exists q B', pop f s t k m = Some q /\ -1 <= q < k /\ env k B' s t q /\ 0 <= B' <= n /\
      (forall x i, B' <= x < n -> 0 <= i < k -> F x k < F x i) /\
      (q = -1 -> B' = 0) /\ (0 <= q -> F (get t q) (get s q) <= F (get t q) k).
  Proof.
    intros Hk. induction m as [|m IH]; intros B Hm HE HB H0 Hlow.
    - exists (-1), B. cbn [pop]. split; [reflexivity|]. split; [la|]. split; [exact HE|]. split; [exact HB|]. split; [exact Hlow|]. split; [auto|la].
    - set (q := Z.of_nat m) in *. replace (Z.of_nat (S m) - 1) with q in HE by la. destruct HE as (Ls & Lt & T0 & R & Inc & Q).
      destruct (R q ltac:(la)) as [Rs Rt]. cbn [pop]. fold q.
      rewrite (rd_znth 0 t q), (rd_znth 0 s q) by la. cbn [option_bind].
      rewrite !Hf by la. cbn [option_bind]. destruct (Z.gtb_spec (F (get t q) (get s q)) (F (get t q) k)) as [G|G].
      + apply (IH (get t q)); [la| |la| |].
        * split; [exact Ls|]. split; [exact Lt|]. split; [exact T0|]. split; [|split].
          -- intros j Hj. destruct (R j ltac:(la)) as [A1 A2]. split; [exact A1|]. split; [la|]. apply Inc; la.
          -- intros i j Hi Hj. apply Inc; la.
          -- intros j x Hj Hx i Hi. apply Q; try la. destruct (Z.eqb_spec j q); [la|].
             destruct (Z.eqb_spec j (q - 1)) as [->|]; [|la]. replace (q - 1 + 1) with q by la. la.
        * intros ->. replace q with 0 by reflexivity. exact T0.
        * intros x i Hx Hi. assert (F x k < F x (get s q)). { apply (Hmono (get s q) k (get t q) x); la. }
          destruct (Z.le_gt_cases B x) as [L|L]; [apply Hlow; la|].
          specialize (Q q x ltac:(la)). rewrite Z.eqb_refl in Q. specialize (Q ltac:(la) i Hi). la.
      + exists q, B. split; [reflexivity|]. split; [la|]. split; [repeat split; try assumption; try (apply R; assumption)|].
        split; [exact HB|]. split; [exact Hlow|]. split; la.
  Qed.

  Lemma scan3_step_spec k s t q : 0 < k < n -> 0 <= q < k -> env k n s t q ->
    exists s' t' q', scan3_step f sep n (s, t, q) k = Some (s', t', q') /\ 0 <= q' < k + 1 /\ env (k + 1) n s' t' q'.
  Proof.
    intros Hk Hq HE. unfold scan3_step.
    destruct (pop_spec k s t Hk (Z.to_nat (q + 1)) n) as (q1 & B & -> & Hq1 & HE1 & HB & Hlow & HN & HP); [la| |la|la|intros; la|].
    { replace (Z.of_nat (Z.to_nat (q + 1)) - 1) with q by la. exact HE. }
    cbn [option_bind]. destruct HE1 as (Ls & Lt & T0 & R & Inc & Q). destruct (Z.ltb_spec q1 0) as [L|L].
    - (* all the stack is gone *)
      assert (B = 0) by (apply HN; la). subst B. destruct (wr_Some s 0 k ltac:(la)) as [s' Es]. rewrite Es. cbn [option_bind].
      exists s', t, 0. split; [reflexivity|]. split; [la|]. pose proof (get_wr _ _ _ _ Es) as Gs.
      split; [rewrite (wr_length _ _ _ _ Es); exact Ls|]. split; [exact Lt|]. split; [exact T0|]. split; [|split].
      + intros j Hj. replace j with 0 by la. rewrite Gs, T0. cbn. la.
      + intros; la.
      + intros j x Hj Hx i Hi. replace j with 0 in * by la. rewrite Gs. rewrite T0 in Hx. cbn in Hx |- *.
        destruct (Z.eq_dec i k) as [->|]; [la|]. specialize (Hlow x i ltac:(la) ltac:(la)). la.
    - destruct (R q1 ltac:(la)) as [Rs Rt]. rewrite (rd_znth 0 s q1) by la. cbn [option_bind].
      destruct (Hsep (get s q1) k (get t q1)) as (w & Ew & Hw); [la|la|la|apply HP; la|]. rewrite Ew. cbn [option_bind].
      assert (Tw : get t q1 <= w) by (apply Hw; [la|apply HP; la]).
      assert (Bw : forall x, 0 <= x < n -> x <= w -> x < B).
      { intros x Hx Hxw. destruct (Z.le_gt_cases B x) as [LB|]; [|assumption]. apply Hw in Hxw; [|la]. specialize (Hlow x (get s q1) ltac:(la) ltac:(la)). la. }
      clear HE HN HP.
      assert (LOW : forall j x, 0 <= j <= q1 -> get t j <= x < n -> x < (if j =? q1 then 1 + w else get t (j + 1)) -> forall i, 0 <= i < k + 1 -> F x (get s j) <= F x i).
      { intros j x Hj Hx Hx2 i Hi. destruct (R j Hj) as [Rsj Rtj].
        destruct (Z.eqb_spec j q1) as [->|Nj].
        - destruct (Z.eq_dec i k) as [->|Ni]; [apply Hw; la|].
          assert (0 <= x < n) by (clear - Hx Rtj; la). assert (x <= w) by (clear - Hx2; la). pose proof (Bw x H H0). specialize (Q q1 x Hj). rewrite Z.eqb_refl in Q. apply Q; [clear - Hx H1; la|clear - Hi Ni; la].
        - assert (get t (j + 1) <= get t q1). { destruct (Z.eq_dec (j + 1) q1) as [->|]; [la|]. specialize (Inc (j + 1) q1 ltac:(la) ltac:(la)). la. }
          specialize (Q j x Hj). destruct (Z.eqb_spec j q1); [contradiction|]. specialize (Q (conj (proj1 Hx) Hx2)).
          destruct (Z.eq_dec i k) as [->|Ni]; [|apply Q; clear - Hi Ni; la].
          specialize (Q (get s q1) ltac:(la)). assert (F x (get s q1) <= F x k) by (apply Hw; la). la. }
      destruct (Z.ltb_spec (1 + w) n) as [Lw|Lw].
      + destruct (wr_Some s (q1 + 1) k ltac:(la)) as [s' Es]. destruct (wr_Some t (q1 + 1) (1 + w) ltac:(la)) as [t' Et].
        rewrite Es, Et. cbn [option_bind]. pose proof (get_wr _ _ _ _ Es) as Gs. pose proof (get_wr _ _ _ _ Et) as Gt.
        exists s', t', (q1 + 1). split; [reflexivity|]. split; [la|].
        split; [rewrite (wr_length _ _ _ _ Es); exact Ls|]. split; [rewrite (wr_length _ _ _ _ Et); exact Lt|]. split; [|split; [|split]].
        * rewrite Gt. destruct (Z.eqb_spec (q1 + 1) 0); [la|exact T0].
        * intros j Hj. rewrite Gs, Gt. destruct (Z.eqb_spec (q1 + 1) j); [la|]. destruct (R j ltac:(la)). la.
        * intros i j Hi Hj. rewrite !Gt. destruct (Z.eqb_spec (q1 + 1) i); [la|]. destruct (Z.eqb_spec (q1 + 1) j).
          -- destruct (Z.eq_dec i q1) as [->|]; [la|]. specialize (Inc i q1 ltac:(la) ltac:(la)). la.
          -- apply Inc; la.
        * intros j x Hj Hx i Hi. rewrite Gt in Hx. rewrite Gs. destruct (Z.eqb_spec (q1 + 1) j) as [<-|Nj].
          -- rewrite Z.eqb_refl in Hx. assert (F x k < F x (get s q1)). { destruct (Z.lt_ge_cases (F x k) (F x (get s q1))) as [|Ge]; [assumption|]. apply Hw in Ge; la. }
             destruct (Z.eq_dec i k) as [->|]; [la|]. destruct (Z.lt_ge_cases x B) as [LB|LB].
             ++ specialize (Q q1 x ltac:(la)). rewrite Z.eqb_refl in Q. specialize (Q ltac:(la) i ltac:(la)). la.
             ++ specialize (Hlow x i ltac:(la) ltac:(la)). la.
          -- destruct (R j ltac:(la)) as [Rsj Rtj]. destruct (Z.eqb_spec j (q1 + 1)); [la|]. rewrite Gt in Hx.
             apply LOW; try la.
             ++ destruct (Z.eqb_spec (q1 + 1) (j + 1)); [la|]. destruct (R (j + 1) ltac:(la)). la.
             ++ destruct (Z.eqb_spec j q1) as [->|]; [rewrite Z.eqb_refl in Hx; la|]. destruct (Z.eqb_spec (q1 + 1) (j + 1)); la.
      + exists s, t, q1. split; [reflexivity|]. split; [la|]. split; [exact Ls|]. split; [exact Lt|]. split; [exact T0|]. split; [|split; [exact Inc|]].
        * intros j Hj. destruct (R j Hj). la.
        * intros j x Hj Hx i Hi. destruct (R j Hj) as [Rsj Rtj]. apply LOW; try la.
          -- destruct (Z.eqb_spec j q1); [la|]. destruct (R (j + 1) ltac:(la)). la.
          -- destruct (Z.eqb_spec j q1); la.
  Qed.

  Lemma envelope_spec out s t : Z.of_nat (length out) = N -> Z.of_nat (length s) = K -> Z.of_nat (length t) = K ->
    exists out' s' t', envelope f sep val pos n (out, s, t) = Some (out', s', t') /\
      Z.of_nat (length out') = N /\ Z.of_nat (length s') = K /\ Z.of_nat (length t') = K /\
      (forall p, ~ online n pos p -> get out' p = get out p) /\
      forall i, 0 <= i < n -> least (fun v => exists j, 0 <= j < n /\ v = F i j) (get out' (pos i)).
  Proof.
    intros LO LS LT. unfold envelope. destruct (wr_Some t 0 0 ltac:(la)) as [t0 Et]. destruct (wr_Some s 0 0 ltac:(la)) as [s0 Es].
    rewrite Et, Es. cbn [option_bind]. pose proof (get_wr _ _ _ _ Es) as Gs. pose proof (get_wr _ _ _ _ Et) as Gt.
    destruct (fold_up (scan3_step f sep n) (fun k st => let '(s, t, q) := st in 0 <= q < k /\ env k n s t q) 1 (n - 1) (s0, t0, 0))
      as (((s1 & t1) & q1) & -> & Hq1 & HE); [la| | |].
    - split; [la|]. split; [rewrite (wr_length _ _ _ _ Es); exact LS|]. split; [rewrite (wr_length _ _ _ _ Et); exact LT|].
      split; [rewrite Gt; reflexivity|]. split; [|split; [intros; la|]].
      + intros j Hj. replace j with 0 by la. rewrite Gs, Gt. cbn. la.
      + intros j x Hj Hx i Hi. replace j with 0 by la. replace i with 0 by la. rewrite Gs. cbn. la.
    - intros k ((s1 & t1) & q1) Hk (Hq1 & HE1). destruct (scan3_step_spec k s1 t1 q1 ltac:(la) Hq1 HE1) as (s2 & t2 & q2 & E & H2 & HE2).
      exists (s2, t2, q2). split; [exact E|]. split; assumption.
    - cbn [option_bind]. replace (1 + (n - 1)) with n in * by la. destruct HE as (Ls & Lt & T0 & R & Inc & Q).
      destruct (fold_down (scan4_step val pos s1 t1) (fun k st => let '(o, q) := st in Z.of_nat (length o) = N /\ q <= q1 /\
          (0 < k -> 0 <= q /\ get t1 q <= k - 1 < (if q =? q1 then n else get t1 (q + 1))) /\
          (forall p, ~ online n pos p -> get o p = get out p) /\
          (forall i, k <= i < n -> least (fun v => exists j, 0 <= j < n /\ v = F i j) (get o (pos i)))) n (out, q1))
        as ((o & q) & -> & Lo & _ & _ & U & V); [la| | |].
      + split; [exact LO|]. split; [la|]. split; [|split; [reflexivity|intros; la]]. intros _. rewrite Z.eqb_refl. destruct (R q1 ltac:(la)). la.
      + intros k (o & q) Hk (Lo & Hq & Reg & U & V). destruct (Reg ltac:(la)) as [Hq0 Rk]. replace (k + 1 - 1) with k in Rk by la.
        destruct (R q ltac:(la)) as [Rs Rt]. assert (MIN : forall j, 0 <= j < n -> F k (get s1 q) <= F k j) by (intros j Hj; apply Q; la).
        unfold scan4_step. rewrite (rd_znth 0 s1 q) by la. cbn [option_bind]. rewrite Hval by (try la; exact MIN). cbn [option_bind].
        destruct (wr_Some o (pos k) (F k (get s1 q))) as [o' Eo]. { pose proof (Hpos k Hk). la. }
        rewrite Eo. cbn [option_bind]. rewrite (rd_znth 0 t1 q) by la. cbn [option_bind]. pose proof (get_wr _ _ _ _ Eo) as Go.
        eexists (_, _). split; [reflexivity|]. cbn iota beta. split; [rewrite (wr_length _ _ _ _ Eo); exact Lo|]. split; [destruct (k =? get t1 q); la|].
        split; [|split].
        * intros Hk0. destruct (Z.eqb_spec k (get t1 q)) as [Ek|Nk].
          -- destruct (Z.eq_dec q 0) as [->|Nq]; [la|]. destruct (R (q - 1) ltac:(la)) as [_ Rt']. specialize (Inc (q - 1) q ltac:(la) ltac:(la)).
             split; [la|]. destruct (Z.eqb_spec (q - 1) q1); [la|]. replace (q - 1 + 1) with q by la. la.
          -- split; [la|]. la.
        * intros p Hp. rewrite Go. destruct (Z.eqb_spec (pos k) p) as [<-|]; [exfalso; apply Hp; exists k; auto|apply U; exact Hp].
        * intros i Hi. rewrite Go. destruct (Z.eqb_spec (pos k) (pos i)) as [Ep|Np].
          -- apply Hinj in Ep; try la. subst i. split; [exists (get s1 q); split; [la|reflexivity]|]. intros u (j & Hj & ->). apply MIN. exact Hj.
          -- apply V. destruct (Z.eq_dec i k) as [->|]; [congruence|la].
      + cbn [option_bind fst]. exists o, s1, t1. split; [reflexivity|]. split; [exact Lo|]. split; [exact Ls|]. split; [exact Lt|]. split; [exact U|exact V].
  Qed.
End Envelope.
