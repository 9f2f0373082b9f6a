(** Properties C121: alternate sequential reconstructions. *)
From Verif Require Import Proofs.AsBuildProofs2 Props.P_Morph.
Local Open Scope Z_scope.

(** ** C121.  asBuildOpen is the opening by reconstruction then the closing by reconstruction of sizes 1, 2, ..., n in turn,
    in any legal execution; the output image may be the input image.  asBuildClose: the closing first. *)
Theorem C121_asBuildOpen : forall fuel t junk cs se im out, as_ok t cs se im out -> enough im fuel ->
  exists R, asBuildOpen fuel t junk cs se im out = Some (Some (1, R)) /\ typed_img t R /\
    alternating (open_rec t se) (close_rec t se) (Z.to_nat (se_size se)) im R.
Proof.
  intros fuel t junk cs se im out HC F. destruct (as_parts _ _ _ _ _ HC) as (Ht & Wd & W0 & W1 & W2 & WB & HI & HJ & HG & HT & So & HZ & Lc).
  eexists. split; [apply (asBuildOpen_val t se (cs 0 0%nat)); auto|]. split; [apply (MidO_T t se (sz im)); auto|apply (MidO_chain t se (sz im)); auto].
Qed.
Print Assumptions C121_asBuildOpen.

Theorem C121_asBuildClose : forall fuel t junk cs se im out, as_ok t cs se im out -> enough im fuel ->
  exists R, asBuildClose fuel t junk cs se im out = Some (Some (1, R)) /\ typed_img t R /\
    alternating (close_rec t se) (open_rec t se) (Z.to_nat (se_size se)) im R.
Proof.
  intros fuel t junk cs se im out HC F. destruct (as_parts _ _ _ _ _ HC) as (Ht & Wd & W0 & W1 & W2 & WB & HI & HJ & HG & HT & So & HZ & Lc).
  eexists. split; [apply (asBuildClose_val t se (cs 0 0%nat)); auto|]. split; [apply (MidC_T t se (sz im)); auto|apply (MidC_chain t se (sz im)); auto].
Qed.
Print Assumptions C121_asBuildClose.

(** They are increasing. *)
Theorem C121_asBuildOpen_increasing : forall fuel fuel' t junk junk' cs cs' se A B oa ob ra rb D E,
  as_ok t cs se A oa -> as_ok t cs' se B ob -> sz B = sz A -> enough A fuel -> enough B fuel' ->
  asBuildOpen fuel t junk cs se A oa = Some (Some (ra, D)) -> asBuildOpen fuel' t junk' cs' se B ob = Some (Some (rb, E)) -> le_img A B -> le_img D E.
Proof.
  intros fuel fuel' t junk junk' cs cs' se A B oa ob ra rb D E HA HB S F F'. destruct (as_parts _ _ _ _ _ HA) as (Ht & Wd & W0 & W1 & W2 & Wx & HI & HJ & HG & TA & So & HZ & Lc).
  destruct (as_parts _ _ _ _ _ HB) as (_ & _ & _ & _ & _ & _ & _ & _ & _ & TB & _).
  rewrite (asBuildOpen_val t se (cs 0 0%nat)), (asBuildOpen_val t se (cs 0 0%nat) fuel') by (auto; rewrite S; auto). rewrite S in TB. intros H1 H2. injection H1 as _ <-. injection H2 as _ <-.
  intros H. apply (below_le t (sz A)); [apply (MidO_T t se (sz A)); auto|apply (MidO_T t se (sz A)); auto|].
  apply (Mid_incr img (img_of t (sz A)) (below (sz A))); auto; intros; [apply (recC_T t se (sz A))|apply (recO_T t se (sz A))|apply (recC_incr t se (sz A))|apply (recO_incr t se (sz A))|apply (below_le t (sz A))]; auto.
Qed.
Print Assumptions C121_asBuildOpen_increasing.

Theorem C121_asBuildClose_increasing : forall fuel fuel' t junk junk' cs cs' se A B oa ob ra rb D E,
  as_ok t cs se A oa -> as_ok t cs' se B ob -> sz B = sz A -> enough A fuel -> enough B fuel' ->
  asBuildClose fuel t junk cs se A oa = Some (Some (ra, D)) -> asBuildClose fuel' t junk' cs' se B ob = Some (Some (rb, E)) -> le_img A B -> le_img D E.
Proof.
  intros fuel fuel' t junk junk' cs cs' se A B oa ob ra rb D E HA HB S F F'. destruct (as_parts _ _ _ _ _ HA) as (Ht & Wd & W0 & W1 & W2 & Wx & HI & HJ & HG & TA & So & HZ & Lc).
  destruct (as_parts _ _ _ _ _ HB) as (_ & _ & _ & _ & _ & _ & _ & _ & _ & TB & _).
  rewrite (asBuildClose_val t se (cs 0 0%nat)), (asBuildClose_val t se (cs 0 0%nat) fuel') by (auto; rewrite S; auto). rewrite S in TB. intros H1 H2. injection H1 as _ <-. injection H2 as _ <-.
  intros H. apply (below_le t (sz A)); [apply (MidC_T t se (sz A)); auto|apply (MidC_T t se (sz A)); auto|].
  apply (Mid_incr img (img_of t (sz A)) (below (sz A))); auto; intros; [apply (recO_T t se (sz A))|apply (recC_T t se (sz A))|apply (recO_incr t se (sz A))|apply (recC_incr t se (sz A))|apply (below_le t (sz A))]; auto.
Qed.
Print Assumptions C121_asBuildClose_increasing.

(** With a symmetric element that has its origin, a filter of size p followed by one of size n >= p is the filter of size n;
    with p = n, they are idempotent. *)
Theorem C121_asBuildOpen_absorbs : forall fuel fuel' fuel2 t se junk junk' junk2 cs cs' cs2 p n A oa ob oc ra D,
  as_ok t cs (with_size se p) A oa -> as_ok t cs' (with_size se n) D ob -> as_ok t cs2 (with_size se n) A oc -> enough A fuel -> enough D fuel' -> enough A fuel2 ->
  centred se -> symmetric_se se -> 0 <= p <= n -> asBuildOpen fuel t junk cs (with_size se p) A oa = Some (Some (ra, D)) ->
  exists R, asBuildOpen fuel' t junk' cs' (with_size se n) D ob = Some (Some (1, R)) /\ asBuildOpen fuel2 t junk2 cs2 (with_size se n) A oc = Some (Some (1, R)).
Proof.
  intros fuel fuel' fuel2 t se junk junk' junk2 cs cs' cs2 p n A oa ob oc ra D HA HD HC F F' F2 Ho Hs Hp.
  destruct (as_parts _ _ _ _ _ HC) as (Ht & Wd & W0 & W1 & W2 & Wx & HI & HJ & HG & TA & So & HZ & Lc).
  assert (Lk : forall k, legal_conf (dh (sz A)) (cs2 0 0%nat k)) by (intros; apply Lc). set (c := cs2 0 0%nat) in *. set (sn := with_size se n) in *.
  rewrite (asBuildOpen_val t _ c fuel) by auto. intros H. injection H as _ H. cbn [with_size se_size] in H.
  change (Mid img (recC t sn c) (recO t sn c) (Z.to_nat p) A = D) in H.
  assert (TD : img_of t (sz A) D) by (subst D; apply (MidO_T t sn (sz A)); auto). pose proof TD as (_ & SD & _).
  eexists. split; [apply (asBuildOpen_val t sn c); auto; rewrite SD; exact Lk|]. rewrite (asBuildOpen_val t sn c) by auto. do 3 f_equal. change (se_size sn) with n.
  destruct (Mid_sieve img (img_of t (sz A)) (fun x y => below (sz A) y x) (recC t sn c) (recO t sn c)) with (p := Z.to_nat p) (n := Z.to_nat n) (x := A) as (H1 & H2); try lia; auto.
  - intros x. apply below_refl.
  - intros x y z Hx Hy. eapply below_trans; eassumption.
  - intros. apply (recC_T t sn (sz A)); auto.
  - intros. apply (recO_T t sn (sz A)); auto.
  - intros. apply (recC_incr t sn (sz A)); auto.
  - intros. apply (recO_incr t sn (sz A)); auto.
  - intros. apply (recC_above t sn (sz A)); auto.
  - intros. apply (recO_below t sn (sz A)); auto.
  - intros. apply (recC_absorb t sn (sz A)); auto.
  - intros. apply (recO_absorb t sn (sz A)); auto.
  - rewrite <- H. pose proof (MidO_T t sn (sz A) c Ht W0 W1 W2 Wx HI HJ HG Lk (Z.to_nat n) A TA) as T1. rewrite <- H in TD.
    pose proof (MidO_T t sn (sz A) c Ht W0 W1 W2 Wx HI HJ HG Lk (Z.to_nat n) _ TD) as T2.
    apply (same_img _ _ (sz A)); [apply T1|apply T2|apply T1|apply T2| |]; assumption.
Qed.
Print Assumptions C121_asBuildOpen_absorbs.

Theorem C121_asBuildClose_absorbs : forall fuel fuel' fuel2 t se junk junk' junk2 cs cs' cs2 p n A oa ob oc ra D,
  as_ok t cs (with_size se p) A oa -> as_ok t cs' (with_size se n) D ob -> as_ok t cs2 (with_size se n) A oc -> enough A fuel -> enough D fuel' -> enough A fuel2 ->
  centred se -> symmetric_se se -> 0 <= p <= n -> asBuildClose fuel t junk cs (with_size se p) A oa = Some (Some (ra, D)) ->
  exists R, asBuildClose fuel' t junk' cs' (with_size se n) D ob = Some (Some (1, R)) /\ asBuildClose fuel2 t junk2 cs2 (with_size se n) A oc = Some (Some (1, R)).
Proof.
  intros fuel fuel' fuel2 t se junk junk' junk2 cs cs' cs2 p n A oa ob oc ra D HA HD HC F F' F2 Ho Hs Hp.
  destruct (as_parts _ _ _ _ _ HC) as (Ht & Wd & W0 & W1 & W2 & Wx & HI & HJ & HG & TA & So & HZ & Lc).
  assert (Lk : forall k, legal_conf (dh (sz A)) (cs2 0 0%nat k)) by (intros; apply Lc). set (c := cs2 0 0%nat) in *. set (sn := with_size se n) in *.
  rewrite (asBuildClose_val t _ c fuel) by auto. intros H. injection H as _ H. cbn [with_size se_size] in H.
  change (Mid img (recO t sn c) (recC t sn c) (Z.to_nat p) A = D) in H.
  assert (TD : img_of t (sz A) D) by (subst D; apply (MidC_T t sn (sz A)); auto). pose proof TD as (_ & SD & _).
  eexists. split; [apply (asBuildClose_val t sn c); auto; rewrite SD; exact Lk|]. rewrite (asBuildClose_val t sn c) by auto. do 3 f_equal. change (se_size sn) with n.
  destruct (Mid_sieve img (img_of t (sz A)) (below (sz A)) (recO t sn c) (recC t sn c)) with (p := Z.to_nat p) (n := Z.to_nat n) (x := A) as (H1 & H2); try lia; auto.
  - intros x. apply below_refl.
  - intros x y z Hx Hy. eapply below_trans; eassumption.
  - intros. apply (recO_T t sn (sz A)); auto.
  - intros. apply (recC_T t sn (sz A)); auto.
  - intros. apply (recO_incr t sn (sz A)); auto.
  - intros. apply (recC_incr t sn (sz A)); auto.
  - intros. apply (recO_below t sn (sz A)); auto.
  - intros. apply (recC_above t sn (sz A)); auto.
  - intros. apply (recO_absorb t sn (sz A)); auto.
  - intros. apply (recC_absorb t sn (sz A)); auto.
  - rewrite <- H. pose proof (MidC_T t sn (sz A) c Ht W0 W1 W2 Wx HI HJ HG Lk (Z.to_nat n) A TA) as T1. rewrite <- H in TD.
    pose proof (MidC_T t sn (sz A) c Ht W0 W1 W2 Wx HI HJ HG Lk (Z.to_nat n) _ TD) as T2.
    apply (same_img _ _ (sz A)); [apply T1|apply T2|apply T1|apply T2| |]; assumption.
Qed.
Print Assumptions C121_asBuildClose_absorbs.

(** They lie between the opening and the closing by reconstruction of the same size. *)
Theorem C121_asBuildOpen_between : forall fuel fuel' fuel2 t se junk junk' junk2 cs c1 c2 A oa ob oc ra rb rc D O C,
  as_ok t cs se A oa -> enough A fuel -> enough A fuel' -> enough A fuel2 -> sz ob = sz A -> sz oc = sz A ->
  (forall k, legal_conf (dh (sz A)) (c1 k)) -> (forall k, legal_conf (dh (sz A)) (c2 k)) -> centred se -> symmetric_se se ->
  asBuildOpen fuel t junk cs se A oa = Some (Some (ra, D)) -> buildOpen fuel' t junk' c1 se false A ob = Some (Some (rb, O)) ->
  buildClose fuel2 t junk2 c2 se false A oc = Some (Some (rc, C)) -> le_img O D /\ le_img D C.
Proof.
  intros fuel fuel' fuel2 t se junk junk' junk2 cs c1 c2 A oa ob oc ra rb rc D O C HA F F' F2 Sb Sc L1 L2 Ho Hs.
  destruct (as_parts _ _ _ _ _ HA) as (Ht & Wd & W0 & W1 & W2 & Wx & HI & HJ & HG & TA & So & HZ & Lc).
  rewrite (asBuildOpen_val t se c1 fuel) by auto. intros H. injection H as _ <-. pose proof HG as (_ & Hn & _).
  rewrite <- (with_own se) at 1 2. rewrite <- (Z2Nat.id (se_size se)) at 1 2 by exact Hn.
  rewrite (open_is t se (sz A) c1), (close_is t se (sz A) c1) by auto. intros H1 H2. injection H1 as _ <-. injection H2 as _ <-.
  destruct (Mid_bounds img (img_of t (sz A)) (fun x y => below (sz A) y x) (recC t se c1) (recO t se c1)) with (n := Z.to_nat (se_size se)) (x := A) as (H1 & H2); auto.
  - intros x. apply below_refl.
  - intros x y z Hx Hy. eapply below_trans; eassumption.
  - intros. apply (recC_T t se (sz A)); auto.
  - intros. apply (recO_T t se (sz A)); auto.
  - intros. apply (recC_incr t se (sz A)); auto.
  - intros. apply (recO_incr t se (sz A)); auto.
  - intros. apply (recC_above t se (sz A)); auto.
  - intros. apply (recO_below t se (sz A)); auto.
  - intros. apply (recC_absorb t se (sz A)); auto.
  - intros. apply (recO_absorb t se (sz A)); auto.
  - pose proof (MidO_T t se (sz A) c1 Ht W0 W1 W2 Wx HI HJ HG L1 (Z.to_nat (se_size se)) A TA) as T1.
    pose proof (recO_T t se (sz A) c1 Ht W0 W1 W2 Wx HI HJ HG L1 (Z.to_nat (se_size se)) A TA) as T2.
    pose proof (recC_T t se (sz A) c1 Ht W0 W1 W2 Wx HI HJ HG L1 (Z.to_nat (se_size se)) A TA) as T3.
    split; apply (below_le t (sz A)); assumption.
Qed.
Print Assumptions C121_asBuildOpen_between.

Theorem C121_asBuildClose_between : forall fuel fuel' fuel2 t se junk junk' junk2 cs c1 c2 A oa ob oc ra rb rc D O C,
  as_ok t cs se A oa -> enough A fuel -> enough A fuel' -> enough A fuel2 -> sz ob = sz A -> sz oc = sz A ->
  (forall k, legal_conf (dh (sz A)) (c1 k)) -> (forall k, legal_conf (dh (sz A)) (c2 k)) -> centred se -> symmetric_se se ->
  asBuildClose fuel t junk cs se A oa = Some (Some (ra, D)) -> buildOpen fuel' t junk' c1 se false A ob = Some (Some (rb, O)) ->
  buildClose fuel2 t junk2 c2 se false A oc = Some (Some (rc, C)) -> le_img O D /\ le_img D C.
Proof.
  intros fuel fuel' fuel2 t se junk junk' junk2 cs c1 c2 A oa ob oc ra rb rc D O C HA F F' F2 Sb Sc L1 L2 Ho Hs.
  destruct (as_parts _ _ _ _ _ HA) as (Ht & Wd & W0 & W1 & W2 & Wx & HI & HJ & HG & TA & So & HZ & Lc).
  rewrite (asBuildClose_val t se c1 fuel) by auto. intros H. injection H as _ <-. pose proof HG as (_ & Hn & _).
  rewrite <- (with_own se) at 1 2. rewrite <- (Z2Nat.id (se_size se)) at 1 2 by exact Hn.
  rewrite (open_is t se (sz A) c1), (close_is t se (sz A) c1) by auto. intros H1 H2. injection H1 as _ <-. injection H2 as _ <-.
  destruct (Mid_bounds img (img_of t (sz A)) (below (sz A)) (recO t se c1) (recC t se c1)) with (n := Z.to_nat (se_size se)) (x := A) as (H1 & H2); auto.
  - intros x. apply below_refl.
  - intros x y z Hx Hy. eapply below_trans; eassumption.
  - intros. apply (recO_T t se (sz A)); auto.
  - intros. apply (recC_T t se (sz A)); auto.
  - intros. apply (recO_incr t se (sz A)); auto.
  - intros. apply (recC_incr t se (sz A)); auto.
  - intros. apply (recO_below t se (sz A)); auto.
  - intros. apply (recC_above t se (sz A)); auto.
  - intros. apply (recO_absorb t se (sz A)); auto.
  - intros. apply (recC_absorb t se (sz A)); auto.
  - pose proof (MidC_T t se (sz A) c1 Ht W0 W1 W2 Wx HI HJ HG L1 (Z.to_nat (se_size se)) A TA) as T1.
    pose proof (recO_T t se (sz A) c1 Ht W0 W1 W2 Wx HI HJ HG L1 (Z.to_nat (se_size se)) A TA) as T2.
    pose proof (recC_T t se (sz A) c1 Ht W0 W1 W2 Wx HI HJ HG L1 (Z.to_nat (se_size se)) A TA) as T3.
    split; apply (below_le t (sz A)); assumption.
Qed.
Print Assumptions C121_asBuildClose_between.

(** asBuildClose of the negative is the negative of asBuildOpen. *)
Theorem C121_dual : forall fuel fuel' t junk junk' cs cs' se A B oa ob ra rb D E,
  as_ok t cs se A oa -> as_ok t cs' se B ob -> enough A fuel -> enough B fuel' -> negative t A B -> symmetric_se se ->
  asBuildOpen fuel t junk cs se A oa = Some (Some (ra, D)) -> asBuildClose fuel' t junk' cs' se B ob = Some (Some (rb, E)) -> negative t D E.
Proof.
  intros fuel fuel' t junk junk' cs cs' se A B oa ob ra rb D E HA HB F F' N Hs. destruct (as_parts _ _ _ _ _ HA) as (Ht & Wd & W0 & W1 & W2 & Wx & HI & HJ & HG & TA & So & HZ & Lc).
  destruct (as_parts _ _ _ _ _ HB) as (_ & _ & _ & _ & _ & _ & _ & _ & _ & TB & _). pose proof (proj1 N) as S.
  rewrite (asBuildOpen_val t se (cs 0 0%nat)), (asBuildClose_val t se (cs 0 0%nat) fuel') by (auto; rewrite S; auto). rewrite S in TB. intros H1 H2. injection H1 as _ <-. injection H2 as _ <-.
  apply (Mid_neg t se (sz A)); auto.
Qed.
Print Assumptions C121_dual.

(** They create no contour: neighbours of the same value keep a common value. *)
Theorem C121_zones : forall fuel t junk cs se im out r R, as_ok t cs se im out -> enough im fuel -> symmetric_se se ->
  asBuildOpen fuel t junk cs se im out = Some (Some (r, R)) \/ asBuildClose fuel t junk cs se im out = Some (Some (r, R)) -> keeps_zones se im R.
Proof.
  intros fuel t junk cs se im out r R HC F Hs. destruct (as_parts _ _ _ _ _ HC) as (Ht & Wd & W0 & W1 & W2 & WB & HI & HJ & HG & HT & So & HZ & Lc).
  rewrite (asBuildOpen_val t se (cs 0 0%nat)), (asBuildClose_val t se (cs 0 0%nat)) by auto. intros [H|H]; injection H as _ <-; [apply (MidO_zones t se (sz im))|apply (MidC_zones t se (sz im))]; auto.
Qed.
Print Assumptions C121_zones.

(** Two peaks, one of a single pixel, and a hole. *)
Definition islets : img := Img (Dims 7 5 1) [1;1;1;1;1;1;1; 1;9;1;5;5;5;1; 1;1;1;5;0;6;1; 1;1;1;5;5;5;1; 1;1;1;1;1;1;1].
Lemma islets_ok n : 0 <= n < 100 -> as_ok UINT8 (fun _ _ => one_thread) (SquSE n) islets islets.
Proof.
  intros Hn. assert (W : wf_img islets) by (split; [repeat split; cbn; lia|reflexivity]). split.
  { split; [left; reflexivity|]. split; [exact W|]. split; [reflexivity|]. split; [repeat constructor; cbn; lia|]. split; [repeat split; cbn; lia|].
    split; [|discriminate]. intros q Hq. cbn in Hq. repeat (destruct Hq as [<-|Hq]; [cbn; lia|]). destruct Hq. }
  split; [split; [exact W|]; split; [repeat split; cbn; lia|cbn; lia]|]. split; [|split; [cbn; lia|]].
  - split; [split; [reflexivity|tauto]|]. split; [cbn; lia|]. split; [cbn; lia|]. split; [cbn; lia|discriminate].
  - intros _ _ k. apply one_thread_legal. cbn. lia.
Qed.
Example C121_case : as_ok UINT8 (fun _ _ => one_thread) (SquSE 2) islets islets /\ enough islets 70 /\ centred (SquSE 2) /\ symmetric_se (SquSE 2) /\
  asBuildOpen 70 UINT8 (fun _ => 7) (fun _ _ => one_thread) (SquSE 1) islets islets =
    Some (Some (1, Img (Dims 7 5 1) [1;1;1;1;1;1;1; 1;1;1;1;1;1;1; 1;1;1;1;1;1;1; 1;1;1;1;1;1;1; 1;1;1;1;1;1;1])) /\
  asBuildClose 70 UINT8 (fun _ => 7) (fun _ _ => one_thread) (SquSE 1) islets islets =
    Some (Some (1, Img (Dims 7 5 1) [1;1;1;1;1;1;1; 1;1;1;5;5;5;1; 1;1;1;5;5;5;1; 1;1;1;5;5;5;1; 1;1;1;1;1;1;1])).
Proof.
  split; [apply islets_ok; lia|]. split; [unfold enough; cbn; lia|]. split; [left; reflexivity|]. split.
  - intros q. split; intros H; cbn in H; repeat (destruct H as [<-|H]; [vm_compute; auto 12|]); destruct H.
  - split; vm_compute; reflexivity.
Qed.
