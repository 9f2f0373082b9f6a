(** Proofs on the distance functions: propagation level by level. *)
From Verif Require Export Proofs.DistanceProofs4 Proofs.NeighborFacts Proofs.GeodesicFilters.

(** ** Propagation in a graph *)

Definition zeros (l : list Z) : Z := Z.of_nat (length (filter (fun v => v =? 0) l)).
Lemma zeros_upd_nat l n v : nth_error l n = Some 0 -> v <> 0 -> zeros (upd_nat l n v) + 1 = zeros l.
Proof.
  intros E V. revert n E. unfold zeros. induction l as [|a l IH]; intros [|n] E; try discriminate E.
  - injection E as ->. cbn. destruct (Z.eqb_spec v 0); [contradiction|]. lia.
  - specialize (IH n E). cbn [upd_nat filter]. destruct (a =? 0); cbn [length]; lia.
Qed.
Lemma zeros_wr l p v l' : get l p = 0 -> v <> 0 -> wr l p v = Some l' -> zeros l' + 1 = zeros l.
Proof.
  intros R V W. assert (Hp : 0 <= p < Z.of_nat (length l)).
  { unfold wr in W. destruct (Z.leb_spec 0 p); destruct (Z.ltb_spec p (Z.of_nat (length l))); try discriminate W. lia. }
  pose proof (rd_znth 0 l p Hp) as E. rewrite R in E. unfold rd, wr in *. replace (0 <=? p) with true in * by lia. replace (p <? Z.of_nat (length l)) with true in W by lia.
  cbn [andb] in W. injection W as <-. apply zeros_upd_nat; assumption.
Qed.
Lemma zeros_length l : zeros l <= Z.of_nat (length l).
Proof. unfold zeros. induction l as [|a l IH]; cbn [filter length]; [lia|]. destruct (a =? 0); cbn [length]; lia. Qed.

Section Bfs.
  Variables (N : Z) (P : Type) (pts : list P) (tg : Z -> P -> option Z) (px : list Z) (M : Z) (next_lvl : Z -> Z).
  Hypothesis tg_range : forall i p j, 0 <= i < N -> tg i p = Some j -> 0 <= j < N.
  Hypothesis tg_sym : forall i p j, 0 <= i < N -> In p pts -> tg i p = Some j -> exists p', In p' pts /\ tg j p' = Some i.
  Hypothesis L : Z.of_nat (length px) = N.
  Hypothesis Pos : forall i, 0 <= i < N -> 0 <= get px i.
  Hypothesis M2 : 2 <= M.
  Hypothesis Lvl : forall k, 2 <= k -> k + 1 <= M -> next_lvl k = k + 1.

  (** A zero at [n] steps. *)
  Fixpoint steps (n : nat) (i : Z) : Prop :=
    match n with
    | O => get px i = 0
    | S n => exists j p, 0 <= j < N /\ In p pts /\ tg i p = Some j /\ steps n j
    end.
  Hypothesis Short : forall n i, 0 <= i < N -> steps n i -> exists m, steps m i /\ Z.of_nat m <= M.

  Definition visit (lvl cur : Z) (st : list Z * list Z) (p : P) : option (list Z * list Z) :=
    let '(out, next) := st in
    match tg cur p with
    | None => Some (out, next)
    | Some j =>
      option_bind (rd out j) (fun o =>
      if o =? 0 then option_bind (rd px j) (fun v => if v >? 0 then option_bind (wr out j lvl) (fun out => Some (out, next ++ [j])) else Some (out, next))
      else Some (out, next))
    end.
  Fixpoint levels (fuel : nat) (lvl : Z) (level out : list Z) : option (option (list Z)) :=
    match fuel with
    | O => Some None
    | S fuel =>
      option_bind (fold_opt (fun st cur => fold_opt (visit lvl cur) pts st) level (out, [])) (fun r =>
      let '(out, next) := r in
      match next with [] => Some (Some out) | _ => levels fuel (next_lvl lvl) next out end)
    end.

  Definition Inv (k : Z) (out level : list Z) : Prop :=
    Z.of_nat (length out) = N /\
    (forall i, 0 <= i < N -> 0 <= get out i < k /\ (get px i = 0 -> get out i = 0) /\
       (0 < get out i -> exists n, Z.of_nat n = get out i /\ steps n i /\ forall m, steps m i -> (n <= m)%nat) /\
       (get out i = 0 -> 0 < get px i -> forall m, steps m i -> k <= Z.of_nat m)) /\
    (forall i, In i level <-> 0 <= i < N /\ get out i = k - 1).

  Section Level.
    Variables (k lvl : Z) (out level : list Z).
    Hypothesis K2 : 2 <= k.
    Hypothesis LK : k <= M -> lvl = k.
    Hypothesis HI : Inv k out level.

    Definition Mid (done : list (Z * P)) (st : list Z * list Z) : Prop :=
      let '(o, next) := st in
      Z.of_nat (length o) = N /\
      (forall i, 0 <= i < N -> get o i = get out i \/ (get out i = 0 /\ 0 < get px i /\ get o i = k /\ k <= M /\ steps (Z.to_nat k) i)) /\
      (forall i, In i next <-> 0 <= i < N /\ get out i = 0 /\ get o i <> 0) /\
      zeros o + Z.of_nat (length next) = zeros out /\
      (forall i p j, In (i, p) done -> tg i p = Some j -> 0 < get px j -> get o j <> 0).

    Lemma visit_ok done st cur p : Mid done st -> 0 <= cur < N -> get out cur = k - 1 -> In p pts -> exists st', visit lvl cur st p = Some st' /\ Mid ((cur, p) :: done) st'.
    Proof.
      destruct st as [o next]. intros (Lo & A & B & Z0 & D) Hc Ec Hp. unfold visit. destruct (tg cur p) as [j|] eqn:T.
      2:{ eexists. split; [reflexivity|]. split; [exact Lo|]. split; [exact A|]. split; [exact B|]. split; [exact Z0|].
          intros i q j [E|Hd] T'; [injection E as <- <-; congruence|eauto]. }
      pose proof (tg_range _ _ _ Hc T) as Hj. rewrite (rd_znth 0) by lia. cbn [option_bind]. destruct (Z.eqb_spec (get o j) 0) as [Ej|Nj].
      - rewrite (rd_znth 0) by lia. cbn [option_bind]. destruct (Z.gtb_spec (get px j) 0) as [Vj|Vj].
        + (* a new pixel *)
          assert (Oj : get out j = 0). { destruct (A j Hj) as [E|(E & _)]; [congruence|exact E]. }
          destruct HI as (Lout & HV & HL). destruct (HV cur Hc) as (_ & _ & Hs & _). destruct (Hs ltac:(lia)) as (n & En & Sn & _).
          destruct (tg_sym _ _ _ Hc Hp T) as (p' & Hp' & T').
          assert (Sj : steps (S n) j) by (exists cur, p'; auto). assert (Hkm : forall m, steps m j -> k <= Z.of_nat m) by (destruct (HV j Hj) as (_ & _ & _ & Q); apply Q; assumption).
          destruct (Short _ _ Hj Sj) as (m & Sm & Hm). specialize (Hkm m Sm) as Hk. assert (KM : k <= M) by (clear - Hk Hm; lia). rewrite (LK KM).
          destruct (wr_Some o j k) as [o' W]; [lia|]. rewrite W. cbn [option_bind]. eexists. split; [reflexivity|].
          pose proof (get_wr _ _ _ _ W) as G. split; [rewrite (wr_length _ _ _ _ W); exact Lo|]. split; [|split; [|split]].
          * intros i Hi. rewrite G. destruct (Z.eqb_spec j i) as [<-|Ni]; [|apply A; exact Hi]. right. replace (Z.to_nat k) with (S n) by (clear - En Ec; lia). auto.
          * intros i. rewrite in_app_iff, B, G. cbn [In]. destruct (Z.eqb_spec j i) as [<-|Ni].
            -- split; [intros _; split; [exact Hj|split; [exact Oj|clear - K2; lia]]|intros _; right; left; reflexivity].
            -- split; [intros [H|[H|[]]]; [exact H|contradiction]|intros H; left; exact H].
          * rewrite app_length. cbn [length]. assert (K0 : k <> 0) by (clear - K2; lia). pose proof (zeros_wr _ _ _ _ Ej K0 W) as ZW. clear - ZW Z0. lia.
          * intros i q j' [E|Hd] T2 V2; rewrite G; destruct (Z.eqb_spec j j') as [<-|Nj]; try (clear - K2; lia).
            -- injection E as <- <-. congruence.
            -- eauto.
        + eexists. split; [reflexivity|]. split; [exact Lo|]. split; [exact A|]. split; [exact B|]. split; [exact Z0|].
          intros i q j' [E|Hd] T' V; [injection E as <- <-; rewrite T in T'; injection T' as <-; lia|eauto].
      - eexists. split; [reflexivity|]. split; [exact Lo|]. split; [exact A|]. split; [exact B|]. split; [exact Z0|].
        intros i q j' [E|Hd] T' V; [injection E as <- <-; rewrite T in T'; injection T' as <-; exact Nj|eauto].
    Qed.

    Lemma visits_ok cur l : 0 <= cur < N -> get out cur = k - 1 -> incl l pts -> forall done st, Mid done st ->
      exists st' done', fold_opt (visit lvl cur) l st = Some st' /\ Mid done' st' /\ incl done done' /\ forall p, In p l -> In (cur, p) done'.
    Proof.
      intros Hc Ec. induction l as [|p l IH]; intros Hi done st HM; [exists st, done; split; [reflexivity|]; split; [exact HM|]; split; [apply incl_refl|intros p []]|].
      destruct (visit_ok done st cur p HM Hc Ec (Hi p (or_introl eq_refl))) as (st1 & E1 & M1). cbn [fold_opt]. rewrite E1. cbn [option_bind].
      destruct (IH (fun q Hq => Hi q (or_intror Hq)) _ _ M1) as (st' & done' & E & M' & I & Q). exists st', done'. split; [exact E|]. split; [exact M'|]. split.
      - intros q Hq. apply I. right. exact Hq.
      - intros q [->|Hq]; [apply I; left; reflexivity|apply Q; exact Hq].
    Qed.

    Lemma level_ok l : (forall i, In i l -> 0 <= i < N /\ get out i = k - 1) -> forall done st, Mid done st ->
      exists st' done', fold_opt (fun st cur => fold_opt (visit lvl cur) pts st) l st = Some st' /\ Mid done' st' /\ incl done done' /\ forall i p, In i l -> In p pts -> In (i, p) done'.
    Proof.
      induction l as [|c l IH]; intros Hl done st HM; [exists st, done; split; [reflexivity|]; split; [exact HM|]; split; [apply incl_refl|intros i p []]|].
      destruct (Hl c (or_introl eq_refl)) as (Hc & Ec). destruct (visits_ok c pts Hc Ec (incl_refl _) done st HM) as (st1 & d1 & E1 & M1 & I1 & Q1).
      cbn [fold_opt]. rewrite E1. cbn [option_bind]. destruct (IH (fun i Hi => Hl i (or_intror Hi)) _ _ M1) as (st' & done' & E & M' & I & Q).
      exists st', done'. split; [exact E|]. split; [exact M'|]. split; [intros q Hq; apply I, I1, Hq|]. intros i p [->|Hi] Hp; [apply I, Q1, Hp|apply Q; assumption].
    Qed.

    Lemma level_inv : exists out' next, fold_opt (fun st cur => fold_opt (visit lvl cur) pts st) level (out, []) = Some (out', next) /\
      Inv (k + 1) out' next /\ zeros out' + Z.of_nat (length next) = zeros out /\ (k <= M \/ next = []).
    Proof.
      assert (HI' := HI). destruct HI' as (Lout & HV & HL). destruct (level_ok level) with (done := @nil (Z * P)) (st := (out, @nil Z)) as ([out' next] & done & E & (Lo & A & B & Z0 & D) & _ & Q).
      - intros i Hi. apply HL. exact Hi.
      - split; [exact Lout|]. split; [intros i Hi; left; reflexivity|]. split; [intros i; split; [intros []|intros (_ & E1 & E2); congruence]|]. split; [cbn; lia|intros i p j []].
      - exists out', next. split; [exact E|]. split; [split; [exact Lo|split]|split; [exact Z0|]].
        + intros i Hi. destruct (HV i Hi) as (H1 & H2 & H3 & H4). destruct (A i Hi) as [G|(G0 & Gv & G & KM & Sk)].
          * rewrite G. split; [clear - H1; lia|]. split; [exact H2|]. split; [exact H3|]. intros G0 V m Sm. pose proof (H4 G0 V m Sm) as Hm.
            destruct (Z.eq_dec k (Z.of_nat m)) as [Ek|Nk]; [|clear - Hm Nk; lia]. exfalso.
            (* a pixel at k steps has been reached *)
            destruct m as [|n]; [clear - Ek K2; lia|]. destruct Sm as (j & p & Hj & Hp & T & Sn). destruct (HV j Hj) as (J1 & J2 & J3 & J4).
            destruct (tg_sym _ _ _ Hi Hp T) as (p' & Hp' & T').
            destruct (Z.eq_dec (get px j) 0) as [Zj|NZ].
            { assert (S1 : steps 1 i) by (exists j, p; auto). pose proof (H4 G0 V _ S1) as Q1. clear - Q1 K2. lia. }
            assert (Vj : 0 < get px j) by (pose proof (Pos j Hj) as Pj; clear - Pj NZ; lia).
            destruct (Z.eq_dec (get out j) 0) as [Oj|NO].
            { pose proof (J4 Oj Vj _ Sn) as Q1. clear - Q1 Ek. lia. }
            destruct (J3 ltac:(clear - J1 NO; lia)) as (n' & En & Sn' & Mn). assert (S1 : steps (S n') i) by (exists j, p; auto).
            pose proof (H4 G0 V _ S1) as Q1. assert (Ej : get out j = k - 1) by (clear - Q1 En J1; lia).
            apply (D j p' i); [apply Q; [apply HL; split; assumption|exact Hp']|exact T'|exact V|congruence].
          * rewrite G. split; [clear - K2; lia|]. split; [intros Z'; clear - Z' Gv; lia|]. split; [intros _|intros Z'; clear - Z' K2; lia].
            exists (Z.to_nat k). split; [clear - K2; lia|]. split; [exact Sk|]. intros m Sm. pose proof (H4 G0 Gv m Sm) as Hm. clear - Hm. lia.
        + intros i. rewrite B. split; intros (Hi & H).
          * split; [exact Hi|]. destruct H as (G0 & G1). destruct (A i Hi) as [G|(_ & _ & G & _)]; [congruence|rewrite G; clear; lia].
          * split; [exact Hi|]. destruct (HV i Hi) as (H1 & _). destruct (A i Hi) as [G|(G0 & _ & G & _)]; [exfalso; rewrite G in H; clear - H H1; lia|]. split; [exact G0|]. clear - H K2. lia.
        + destruct next as [|j next]; [right; reflexivity|left]. destruct (proj1 (B j) (or_introl eq_refl)) as (Hj & G0 & G1). destruct (A j Hj) as [G|(_ & _ & _ & KM & _)]; [congruence|exact KM].
    Qed.
  End Level.

  Theorem levels_ok fuel : forall k lvl level out, 2 <= k -> (k <= M -> lvl = k) -> Inv k out level -> zeros out < Z.of_nat fuel ->
    exists out' k', levels fuel lvl level out = Some (Some out') /\ 2 <= k' /\ Inv k' out' [].
  Proof.
    induction fuel as [|fuel IH]; intros k lvl level out K2 LK HI HF. { unfold zeros in HF. lia. }
    destruct (level_inv k lvl out level K2 LK HI) as (out' & next & E & HI' & HZ & KM). cbn [levels]. rewrite E. cbn [option_bind].
    destruct next as [|j next]; [exists out', (k + 1); split; [reflexivity|]; split; [lia|exact HI']|]. destruct KM as [KM|]; [|discriminate].
    apply (IH (k + 1)); [lia| |exact HI'|cbn [length] in HZ; lia]. intros K1. rewrite (LK KM). apply Lvl; assumption.
  Qed.

  (** At the end, no pixel is left for a further level. *)
  Lemma inv_end k out : 2 <= k -> Inv k out [] -> forall i, 0 <= i < N ->
    (forall n, steps n i -> exists m, Z.of_nat m = get out i /\ steps m i /\ forall q, steps q i -> (m <= q)%nat) /\ ((forall n, ~ steps n i) -> get out i = 0).
  Proof.
    intros K2 (Lo & HV & HL).
    assert (Far : forall n i, 0 <= i < N -> steps n i -> get out i = 0 -> 0 < get px i -> False).
    { induction n as [|n IH]; intros i Hi S G V; [cbn in S; lia|]. destruct (HV i Hi) as (H1 & H2 & H3 & H4). pose proof (H4 G V _ S) as Hk.
      destruct S as (j & p & Hj & Hp & T & Sn). destruct (HV j Hj) as (J1 & J2 & J3 & J4).
      destruct (Z.eq_dec (get px j) 0) as [Zj|NZ]. { assert (S1 : steps 1 i) by (exists j, p; auto). pose proof (H4 G V _ S1) as Q1. clear - Q1 K2. lia. }
      pose proof (Pos j Hj) as Pj. destruct (Z.eq_dec (get out j) 0) as [Oj|NO]; [apply (IH j); auto; clear - Pj NZ; lia|].
      destruct (J3 ltac:(clear - J1 NO; lia)) as (n' & En & Sn' & Mn). assert (S1 : steps (S n') i) by (exists j, p; auto). pose proof (H4 G V _ S1) as Q1.
      apply (HL j). split; [exact Hj|]. clear - Q1 En J1. lia. }
    intros i Hi. destruct (HV i Hi) as (H1 & H2 & H3 & H4). split.
    - intros n Sn. destruct (Z.eq_dec (get out i) 0) as [G|NG]; [|apply H3; clear - H1 NG; lia].
      destruct (Z.eq_dec (get px i) 0) as [V|NV]; [exists O; split; [rewrite G; reflexivity|]; split; [exact V|intros; lia]|].
      exfalso. pose proof (Pos i Hi) as Pi. apply (Far n i); auto. clear - Pi NV. lia.
    - intros Hn. destruct (Z.eq_dec (get out i) 0) as [G|NG]; [exact G|]. exfalso. destruct (H3 ltac:(clear - H1 NG; lia)) as (n & _ & S & _). apply (Hn n S).
  Qed.
End Bfs.
