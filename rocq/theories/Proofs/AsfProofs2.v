From Verif Require Export Proofs.AsfProofs.

Lemma good_sized se s n : good_se se s -> 0 <= n -> good_se (with_size se n) s.
Proof. intros (HT & Hn & HF & HF' & HP) H. split; [exact HT|]. split; [exact H|]. split; [exact HF|]. split; [exact HF'|exact HP]. Qed.

Lemma opn_ext t s se n F G : (forall x y z, inside s x y z -> F x y z = G x y z) -> forall x y z, inside s x y z -> opn t s se n F x y z = opn t s se n G x y z.
Proof. intros H x y z Hi. apply cann_ext; [|exact Hi]. intros x1 y1 z1 H1. apply cann_ext; [exact H|exact H1]. Qed.
Lemma cls_ext t s se n F G : (forall x y z, inside s x y z -> F x y z = G x y z) -> forall x y z, inside s x y z -> cls t s se n F x y z = cls t s se n G x y z.
Proof. intros H x y z Hi. apply cann_ext; [|exact Hi]. intros x1 y1 z1 H1. apply cann_ext; [exact H|exact H1]. Qed.

Fixpoint MidFrom {X} (a b : nat -> X -> X) (i n : nat) (x : X) : X :=
  match n with O => x | S m => MidFrom a b (S i) m (mid X a b (S i) x) end.
Lemma MidFrom_S {X} (a b : nat -> X -> X) n : forall i x, MidFrom a b i (S n) x = mid X a b (i + S n) (MidFrom a b i n x).
Proof.
  induction n as [|n IH]; intros i x; [cbn; rewrite Nat.add_1_r; reflexivity|].
  change (MidFrom a b i (S (S n)) x) with (MidFrom a b (S i) (S n) (mid X a b (S i) x)). rewrite IH.
  replace (S i + S n)%nat with (i + S (S n))%nat by lia. reflexivity.
Qed.
Lemma MidFrom_0 {X} (a b : nat -> X -> X) n x : MidFrom a b 0 n x = Mid X a b n x.
Proof. induction n as [|n IH]; [reflexivity|]. rewrite MidFrom_S, IH. reflexivity. Qed.

Section Run.
Context (t : ity) (junk : Z -> Z) (se : strelt) (s : dims) (Ws : wf_dims s) (W0 : 0 < dw s) (W1 : 0 < dh s) (W2 : 0 < dd s) (WB : dw s < 2 ^ 63) (HG : good_se se s).

Lemma mk_good F : good_img (mk_img s F).
Proof using Ws W0 W1 W2 WB. split; [apply mk_img_wf; exact Ws|]. split; [split; [exact W0|split; [exact W1|exact W2]]|exact WB]. Qed.

Lemma open_mk c1 c2 n F out : (forall k, legal_conf (dh s) (c1 k)) -> (forall k, legal_conf (dh s) (c2 k)) -> wf_img out -> sz out = s -> 0 <= n ->
  open_im t junk c1 c2 (with_size se n) false (mk_img s F) out = Some (1, mk_img s (opn t s se (Z.to_nat n) F)).
Proof.
  intros L1 L2 Wo So Hn. rewrite (open_eq t junk (with_size se n) (mk_img s F) (mk_good F)); auto using good_sized; try discriminate.
  do 2 f_equal. apply mk_img_ext. intros x y z Hi. apply (opn_ext t s se (Z.to_nat n)); [|exact Hi]. intros. apply pxv_mk; assumption.
Qed.
Lemma close_mk c1 c2 n F out : (forall k, legal_conf (dh s) (c1 k)) -> (forall k, legal_conf (dh s) (c2 k)) -> wf_img out -> sz out = s -> 0 <= n ->
  close_im t junk c1 c2 (with_size se n) false (mk_img s F) out = Some (1, mk_img s (cls t s se (Z.to_nat n) F)).
Proof.
  intros L1 L2 Wo So Hn. rewrite (close_eq t junk (with_size se n) (mk_img s F) (mk_good F)); auto using good_sized; try discriminate.
  do 2 f_equal. apply mk_img_ext. intros x y z Hi. apply (cls_ext t s se (Z.to_nat n)); [|exact Hi]. intros. apply pxv_mk; assumption.
Qed.

Section Turns.
Variables (first second : Z -> img -> img -> option (Z * img)) (a b : nat -> (Z -> Z -> Z -> Z) -> Z -> Z -> Z -> Z).
Hypothesis H1 : forall n F out, wf_img out -> sz out = s -> 0 <= n -> first n (mk_img s F) out = Some (1, mk_img s (b (Z.to_nat n) F)).
Hypothesis H2 : forall n F out, wf_img out -> sz out = s -> 0 <= n -> second n (mk_img s F) out = Some (1, mk_img s (a (Z.to_nat n) F)).
Lemma asf_turns n : forall i F out, wf_img out -> sz out = s -> asf first second n (Z.of_nat i + 1) (mk_img s F) out = Some (mk_img s (MidFrom a b i n F)).
Proof.
  induction n as [|n IH]; intros i F out Wo So; [reflexivity|]. cbn [asf]. rewrite H1 by (auto; lia). cbn [option_bind snd].
  rewrite H2 by (auto using mk_img_wf; lia). cbn [option_bind snd].
  replace (Z.of_nat i + 1 + 1) with (Z.of_nat (S i) + 1) by lia. rewrite IH by (auto using mk_img_wf).
  replace (Z.to_nat (Z.of_nat i + 1)) with (S i) by lia. reflexivity.
Qed.
End Turns.

Lemma asfClose_mk cs n F out : (forall i j k, legal_conf (dh s) (cs i j k)) -> wf_img out -> sz out = s ->
  asfClose t junk cs (with_size se n) (mk_img s F) out = Some (1, mk_img s (asfC t s se (Z.to_nat n) F)).
Proof.
  intros L Wo So. unfold asfClose. rewrite same_size_true by (symmetry; exact So). cbn [negb]. change 1 with (Z.of_nat 0 + 1) at 1.
  rewrite (asf_turns _ _ (opn t s se) (cls t s se)); [| | |exact Wo|exact So].
  - cbn [option_bind with_size se_size]. rewrite MidFrom_0. reflexivity.
  - intros m G o Wo' So' Hm. apply (close_mk _ _ m G o); auto.
  - intros m G o Wo' So' Hm. apply (open_mk _ _ m G o); auto.
Qed.
Lemma asfOpen_mk cs n F out : (forall i j k, legal_conf (dh s) (cs i j k)) -> wf_img out -> sz out = s ->
  asfOpen t junk cs (with_size se n) (mk_img s F) out = Some (1, mk_img s (asfO t s se (Z.to_nat n) F)).
Proof.
  intros L Wo So. unfold asfOpen. rewrite same_size_true by (symmetry; exact So). cbn [negb]. change 1 with (Z.of_nat 0 + 1) at 1.
  rewrite (asf_turns _ _ (cls t s se) (opn t s se)); [| | |exact Wo|exact So].
  - cbn [option_bind with_size se_size]. rewrite MidFrom_0. reflexivity.
  - intros m G o Wo' So' Hm. apply (open_mk _ _ m G o); auto.
  - intros m G o Wo' So' Hm. apply (close_mk _ _ m G o); auto.
Qed.

(** ** The relations of the specification *)
Lemma dl_passes n F (c : nat -> conf) : (forall k, legal_conf (dh s) (c k)) -> passes n (dilated se (tmin t)) (mk_img s F) (mk_img s (dl t s se n F)).
Proof.
  intros L. pose proof (good_sized se s (Z.of_nat n) HG ltac:(lia)) as HG'. pose proof HG' as (HT & Hn & HF & HF' & HP).
  destruct (dilate_ok junk c (tmin t) (with_size se (Z.of_nat n)) true _ _ (mk_good F) (mk_img_wf s F Ws) eq_refl (fun _ => eq_refl) L HT Hn HF) as (M & EM & PM).
  rewrite (dilate_eq t junk _ _ (mk_good F) HG' c true _ L (mk_img_wf s F Ws) eq_refl (fun _ => eq_refl)) in EM. injection EM as <-.
  cbn [with_size se_size sz mk_img] in PM. rewrite Nat2Z.id in PM. rewrite (mk_img_ext s (dl t s se n F) (dl t s se n (pxv (mk_img s F)))); [exact PM|]. intros x y z Hi. unfold dl. apply cann_ext; [|exact Hi]. intros. symmetry. apply pxv_mk; assumption.
Qed.
Lemma er_passes n F (c : nat -> conf) : (forall k, legal_conf (dh s) (c k)) -> passes n (eroded se (tmax t)) (mk_img s F) (mk_img s (er t s se n F)).
Proof.
  intros L. pose proof (good_sized se s (Z.of_nat n) HG ltac:(lia)) as HG'. pose proof HG' as (HT & Hn & HF & HF' & HP).
  destruct (erode_ok junk c (tmax t) (with_size se (Z.of_nat n)) true _ _ (mk_good F) (mk_img_wf s F Ws) eq_refl (fun _ => eq_refl) L HT Hn HF' HP) as (M & EM & PM).
  rewrite (erode_eq t junk _ _ (mk_good F) HG' c true _ L (mk_img_wf s F Ws) eq_refl (fun _ => eq_refl)) in EM. injection EM as <-.
  cbn [with_size se_size sz mk_img] in PM. rewrite Nat2Z.id in PM. rewrite (mk_img_ext s (er t s se n F) (er t s se n (pxv (mk_img s F)))); [exact PM|]. intros x y z Hi. unfold er. apply cann_ext; [|exact Hi]. intros. symmetry. apply pxv_mk; assumption.
Qed.
Lemma opn_opening n F (c : nat -> conf) : (forall k, legal_conf (dh s) (c k)) -> opening t se n (mk_img s F) (mk_img s (opn t s se n F)).
Proof. intros L. eexists. split; [apply (er_passes n F c L)|]. apply (dl_passes n _ c L). Qed.
Lemma cls_closing n F (c : nat -> conf) : (forall k, legal_conf (dh s) (c k)) -> closing t se n (mk_img s F) (mk_img s (cls t s se n F)).
Proof. intros L. eexists. split; [apply (dl_passes n F c L)|]. apply (er_passes n _ c L). Qed.
Lemma asfC_alternating n F (c : nat -> conf) : (forall k, legal_conf (dh s) (c k)) -> alternating (closing t se) (opening t se) n (mk_img s F) (mk_img s (asfC t s se n F)).
Proof.
  intros L. induction n as [|n IH]; [reflexivity|]. eexists _, _. split; [exact IH|]. split; [apply (cls_closing _ _ c L)|]. apply (opn_opening _ _ c L).
Qed.
Lemma asfO_alternating n F (c : nat -> conf) : (forall k, legal_conf (dh s) (c k)) -> alternating (opening t se) (closing t se) n (mk_img s F) (mk_img s (asfO t s se n F)).
Proof.
  intros L. induction n as [|n IH]; [reflexivity|]. eexists _, _. split; [exact IH|]. split; [apply (opn_opening _ _ c L)|]. apply (cls_closing _ _ c L).
Qed.
End Run.

Lemma Mid_ext (a b : nat -> (Z -> Z -> Z -> Z) -> Z -> Z -> Z -> Z) (s : dims) :
  (forall n F G, (forall x y z, inside s x y z -> F x y z = G x y z) -> forall x y z, inside s x y z -> a n F x y z = a n G x y z) ->
  (forall n F G, (forall x y z, inside s x y z -> F x y z = G x y z) -> forall x y z, inside s x y z -> b n F x y z = b n G x y z) ->
  forall n F G, (forall x y z, inside s x y z -> F x y z = G x y z) -> forall x y z, inside s x y z -> Mid _ a b n F x y z = Mid _ a b n G x y z.
Proof. intros Ha Hb n F G H. induction n as [|n IH]; [exact H|]. cbn [Mid]. apply Ha. apply Hb. exact IH. Qed.
Lemma asfC_ext t s se n F G : (forall x y z, inside s x y z -> F x y z = G x y z) -> forall x y z, inside s x y z -> asfC t s se n F x y z = asfC t s se n G x y z.
Proof. apply Mid_ext; [apply opn_ext|apply cls_ext]. Qed.
Lemma asfO_ext t s se n F G : (forall x y z, inside s x y z -> F x y z = G x y z) -> forall x y z, inside s x y z -> asfO t s se n F x y z = asfO t s se n G x y z.
Proof. apply Mid_ext; [apply cls_ext|apply opn_ext]. Qed.

(** ** Calls *)
Lemma with_own se : with_size se (se_size se) = se.
Proof. destruct se. reflexivity. Qed.

Lemma good_nonempty im : good_img im -> wf_dims (sz im) /\ 0 < dw (sz im) /\ 0 < dh (sz im) /\ 0 < dd (sz im) /\ dw (sz im) < 2 ^ 63.
Proof. intros (W & N & B). split; [apply W|]. destruct N as (N1 & N2 & N3). auto. Qed.

Section Calls.
Context (t : ity) (se : strelt).

Lemma asfClose_val junk cs n im out : asf_ok cs im out -> good_se se (sz im) ->
  asfClose t junk cs (with_size se n) im out = Some (1, mk_img (sz im) (asfC t (sz im) se (Z.to_nat n) (pxv im))).
Proof.
  intros (GI & Wo & So & L) HG. destruct (good_nonempty im GI) as (A & B & C & D & E). rewrite <- (asfClose_mk t junk se (sz im) A B C D E HG cs n (pxv im) out L Wo So).
  rewrite <- img_mk by apply GI. reflexivity.
Qed.
Lemma asfOpen_val junk cs n im out : asf_ok cs im out -> good_se se (sz im) ->
  asfOpen t junk cs (with_size se n) im out = Some (1, mk_img (sz im) (asfO t (sz im) se (Z.to_nat n) (pxv im))).
Proof.
  intros (GI & Wo & So & L) HG. destruct (good_nonempty im GI) as (A & B & C & D & E). rewrite <- (asfOpen_mk t junk se (sz im) A B C D E HG cs n (pxv im) out L Wo So).
  rewrite <- img_mk by apply GI. reflexivity.
Qed.

Theorem asfClose_chain junk cs im out : asf_ok cs im out -> good_se se (sz im) ->
  exists R, asfClose t junk cs se im out = Some (1, R) /\ alternating (closing t se) (opening t se) (Z.to_nat (se_size se)) im R.
Proof.
  intros HC HG. eexists. split; [rewrite <- (with_own se) at 1; apply asfClose_val; assumption|]. destruct HC as (GI & Wo & So & L). destruct (good_nonempty im GI) as (A & B & C & D & E).
  rewrite (img_mk im (proj1 GI)) at 1. apply (asfC_alternating t (fun _ => 0) se (sz im) A B C D E HG _ _ (cs 0 0%nat)). intros. apply L.
Qed.
Theorem asfOpen_chain junk cs im out : asf_ok cs im out -> good_se se (sz im) ->
  exists R, asfOpen t junk cs se im out = Some (1, R) /\ alternating (opening t se) (closing t se) (Z.to_nat (se_size se)) im R.
Proof.
  intros HC HG. eexists. split; [rewrite <- (with_own se) at 1; apply asfOpen_val; assumption|]. destruct HC as (GI & Wo & So & L). destruct (good_nonempty im GI) as (A & B & C & D & E).
  rewrite (img_mk im (proj1 GI)) at 1. apply (asfO_alternating t (fun _ => 0) se (sz im) A B C D E HG _ _ (cs 0 0%nat)). intros. apply L.
Qed.

Theorem asfClose_incr junk junk' cs cs' A B oa ob ra rb D E : asf_ok cs A oa -> asf_ok cs' B ob -> sz B = sz A -> typed_img t A -> typed_img t B -> good_se se (sz A) ->
  asfClose t junk cs se A oa = Some (ra, D) -> asfClose t junk' cs' se B ob = Some (rb, E) -> le_img A B -> le_img D E.
Proof.
  intros HA HB HS TA TB HG. rewrite <- (with_own se) at 1 2. rewrite (asfClose_val junk cs _ A oa HA HG), (asfClose_val junk' cs' _ B ob HB) by (rewrite HS; exact HG).
  intros H1 H2. injection H1 as _ <-. injection H2 as _ <-. destruct HA as ((WA & _) & _), HB as ((WB & _) & _). rewrite HS. rewrite le_img_leq by apply WA. rewrite (le_lr A B (sz A)) by auto. intros HL.
  apply asfC_incr; [apply (gse_ne _ _ HG)|apply (gse_pl _ _ HG)| | |exact HL]; apply typed_px; auto.
Qed.

Theorem asfClose_sieve junk junk' junk2 cs cs' cs2 p n A oa ob oc ra D : asf_ok cs A oa -> asf_ok cs' D ob -> asf_ok cs2 A oc -> typed_img t A -> good_se se (sz A) ->
  0 <= p <= n -> asfClose t junk cs (with_size se p) A oa = Some (ra, D) ->
  typed_img t D /\ exists R, asfClose t junk' cs' (with_size se n) D ob = Some (1, R) /\ asfClose t junk2 cs2 (with_size se n) A oc = Some (1, R).
Proof.
  intros HA HD HC TA HG Hp. rewrite (asfClose_val junk cs _ A oa HA HG), (asfClose_val junk2 cs2 _ A oc HC HG). intros H. injection H as _ <-.
  pose proof HA as ((WA & _) & _). pose proof (typed_px t A (sz A) WA TA eq_refl) as TA'.
  split. { apply typed_mk. apply asfC_typed; [apply (gse_ne _ _ HG)|exact TA']. }
  eexists. split; [apply (asfClose_val junk' cs' n _ ob HD HG)|]. do 2 f_equal. cbn [sz mk_img]. apply mk_img_ext. intros x y z Hi.
  destruct (asfC_sieve t (sz A) se (gse_ne _ _ HG) (gse_pl _ _ HG) (Z.to_nat p) (Z.to_nat n) (pxv A) ltac:(lia) TA') as (H1 & H2).
  specialize (H1 x y z Hi). specialize (H2 x y z Hi).
  transitivity (asfC t (sz A) se (Z.to_nat n) (asfC t (sz A) se (Z.to_nat p) (pxv A)) x y z); [lia|].
  symmetry. apply asfC_ext; [|exact Hi]. intros. apply pxv_mk; [apply WA|assumption].
Qed.

Theorem asfClose_bounds junk junk' junk2 cs c1 c2 c1' c2' A oa ob oc al al' ra rb rc D O C : asf_ok cs A oa -> call_ok c1 al A ob -> (forall k, legal_conf (dh (sz A)) (c2 k)) -> call_ok c1' al' A oc -> (forall k, legal_conf (dh (sz A)) (c2' k)) ->
  typed_img t A -> good_se se (sz A) -> asfClose t junk cs se A oa = Some (ra, D) ->
  open_im t junk' c1 c2 se al A ob = Some (rb, O) -> close_im t junk2 c1' c2' se al' A oc = Some (rc, C) -> le_img O D /\ le_img D C.
Proof.
  intros HA H1 L1 H2 L2 TA HG. rewrite <- (with_own se) at 1. rewrite (asfClose_val junk cs _ A oa HA HG). intros H. injection H as _ <-. intros HO HC.
  apply open_val in HO; [|exact H1|exact L1|exact HG]. apply close_val in HC; [|exact H2|exact L2|exact HG]. injection HO as _ ->. injection HC as _ ->.
  pose proof HA as ((WA & _) & _). pose proof (typed_px t A (sz A) WA TA eq_refl) as TA'. rewrite !le_img_leq by apply WA.
  pose proof (asfC_bounds t (sz A) se (gse_ne _ _ HG) (gse_pl _ _ HG) (Z.to_nat (se_size se)) (pxv A) TA') as (B1 & B2). split; assumption.
Qed.

Theorem asfOpen_incr junk junk' cs cs' A B oa ob ra rb D E : asf_ok cs A oa -> asf_ok cs' B ob -> sz B = sz A -> typed_img t A -> typed_img t B -> good_se se (sz A) ->
  asfOpen t junk cs se A oa = Some (ra, D) -> asfOpen t junk' cs' se B ob = Some (rb, E) -> le_img A B -> le_img D E.
Proof.
  intros HA HB HS TA TB HG. rewrite <- (with_own se) at 1 2. rewrite (asfOpen_val junk cs _ A oa HA HG), (asfOpen_val junk' cs' _ B ob HB) by (rewrite HS; exact HG).
  intros H1 H2. injection H1 as _ <-. injection H2 as _ <-. destruct HA as ((WA & _) & _), HB as ((WB & _) & _). rewrite HS. rewrite le_img_leq by apply WA. rewrite (le_lr A B (sz A)) by auto. intros HL.
  apply asfO_incr; [apply (gse_ne _ _ HG)|apply (gse_pl _ _ HG)| | |exact HL]; apply typed_px; auto.
Qed.

Theorem asfOpen_sieve junk junk' junk2 cs cs' cs2 p n A oa ob oc ra D : asf_ok cs A oa -> asf_ok cs' D ob -> asf_ok cs2 A oc -> typed_img t A -> good_se se (sz A) ->
  0 <= p <= n -> asfOpen t junk cs (with_size se p) A oa = Some (ra, D) ->
  typed_img t D /\ exists R, asfOpen t junk' cs' (with_size se n) D ob = Some (1, R) /\ asfOpen t junk2 cs2 (with_size se n) A oc = Some (1, R).
Proof.
  intros HA HD HC TA HG Hp. rewrite (asfOpen_val junk cs _ A oa HA HG), (asfOpen_val junk2 cs2 _ A oc HC HG). intros H. injection H as _ <-.
  pose proof HA as ((WA & _) & _). pose proof (typed_px t A (sz A) WA TA eq_refl) as TA'.
  split. { apply typed_mk. apply asfO_typed; [apply (gse_ne _ _ HG)|exact TA']. }
  eexists. split; [apply (asfOpen_val junk' cs' n _ ob HD HG)|]. do 2 f_equal. cbn [sz mk_img]. apply mk_img_ext. intros x y z Hi.
  destruct (asfO_sieve t (sz A) se (gse_ne _ _ HG) (gse_pl _ _ HG) (Z.to_nat p) (Z.to_nat n) (pxv A) ltac:(lia) TA') as (H1 & H2).
  specialize (H1 x y z Hi). specialize (H2 x y z Hi).
  transitivity (asfO t (sz A) se (Z.to_nat n) (asfO t (sz A) se (Z.to_nat p) (pxv A)) x y z); [lia|].
  symmetry. apply asfO_ext; [|exact Hi]. intros. apply pxv_mk; [apply WA|assumption].
Qed.

Theorem asfOpen_bounds junk junk' junk2 cs c1 c2 c1' c2' A oa ob oc al al' ra rb rc D O C : asf_ok cs A oa -> call_ok c1 al A ob -> (forall k, legal_conf (dh (sz A)) (c2 k)) -> call_ok c1' al' A oc -> (forall k, legal_conf (dh (sz A)) (c2' k)) ->
  typed_img t A -> good_se se (sz A) -> asfOpen t junk cs se A oa = Some (ra, D) ->
  open_im t junk' c1 c2 se al A ob = Some (rb, O) -> close_im t junk2 c1' c2' se al' A oc = Some (rc, C) -> le_img O D /\ le_img D C.
Proof.
  intros HA H1 L1 H2 L2 TA HG. rewrite <- (with_own se) at 1. rewrite (asfOpen_val junk cs _ A oa HA HG). intros H. injection H as _ <-. intros HO HC.
  apply open_val in HO; [|exact H1|exact L1|exact HG]. apply close_val in HC; [|exact H2|exact L2|exact HG]. injection HO as _ ->. injection HC as _ ->.
  pose proof HA as ((WA & _) & _). pose proof (typed_px t A (sz A) WA TA eq_refl) as TA'. rewrite !le_img_leq by apply WA.
  pose proof (asfO_bounds t (sz A) se (gse_ne _ _ HG) (gse_pl _ _ HG) (Z.to_nat (se_size se)) (pxv A) TA') as (B1 & B2). split; assumption.
Qed.
End Calls.

(** ** Negatives *)
Section Dual.
Context (t : ity) (s : dims) (se se' : strelt) (HG : good_se se s) (HG' : good_se se' s) (HM : mirrored se se').
Definition opposite (F G : Z -> Z -> Z -> Z) : Prop := forall x y z, inside s x y z -> G x y z = tmin t + tmax t - F x y z.

Lemma dl_neg n F G : opposite F G -> opposite (dl t s se n F) (er t s se' n G).
Proof.
  intros H x y z Hi. apply cann_neg; [apply (gse_ne _ _ HG)|apply HNt; apply (gse_ne _ _ HG')|apply mirror_pts; exact HM|apply HM|exact H|exact Hi].
Qed.
Lemma er_neg n F G : opposite F G -> opposite (er t s se n F) (dl t s se' n G).
Proof.
  intros H x y z Hi. enough (er t s se n F x y z = tmin t + tmax t - dl t s se' n G x y z) by lia.
  apply cann_neg; [apply (gse_ne _ _ HG')|apply HNt; apply (gse_ne _ _ HG)| | | |exact Hi].
  - destruct HM as (_ & _ & Hp). intros p. rewrite Hp. reflexivity.
  - cbn [transpose se_odd]. symmetry. apply HM.
  - intros x1 y1 z1 H1. rewrite (H x1 y1 z1 H1). lia.
Qed.
Lemma opn_neg n F G : opposite F G -> opposite (opn t s se n F) (cls t s se' n G).
Proof. intros H. apply dl_neg, er_neg, H. Qed.
Lemma cls_neg n F G : opposite F G -> opposite (cls t s se n F) (opn t s se' n G).
Proof. intros H. apply er_neg, dl_neg, H. Qed.
Lemma asf_neg n F G : opposite F G -> opposite (asfC t s se n F) (asfO t s se' n G).
Proof. intros H. induction n as [|n IH]; [exact H|]. apply opn_neg, cls_neg, IH. Qed.
End Dual.

Theorem asf_dual t junk junk' se se' cs cs' A B oa ob ra rb D E : asf_ok cs A oa -> asf_ok cs' B ob -> negative t A B -> good_se se (sz A) -> good_se se' (sz A) -> mirrored se se' ->
  asfClose t junk cs se A oa = Some (ra, D) -> asfOpen t junk' cs' se' B ob = Some (rb, E) -> negative t D E.
Proof.
  intros HA HB HN HG HG' HM. pose proof HN as (S & _). rewrite <- (with_own se) at 1. rewrite <- (with_own se') at 1. rewrite (asfClose_val t se junk cs _ A oa HA HG), (asfOpen_val t se' junk' cs' _ B ob HB) by (rewrite S; exact HG').
  intros H1 H2. injection H1 as _ <-. injection H2 as _ <-. rewrite S. destruct HA as ((WA & _) & _). apply neg_mk; [apply WA|].
  pose proof HM as (_ & Hs & _). rewrite Hs. apply asf_neg; auto. intros x y z Hi. apply neg_pxv; assumption.
Qed.

(** ** Openings of several sizes *)
Theorem open_open t se junk junk' junk2 c1 c2 c1' c2' c3 c4 al al' al2 a b A oa ob oc ra D :
  call_ok c1 al A oa -> (forall k, legal_conf (dh (sz A)) (c2 k)) -> call_ok c1' al' D ob -> (forall k, legal_conf (dh (sz A)) (c2' k)) -> call_ok c3 al2 A oc -> (forall k, legal_conf (dh (sz A)) (c4 k)) ->
  typed_img t A -> good_se se (sz A) -> 0 <= a -> 0 <= b -> open_im t junk c1 c2 (with_size se a) al A oa = Some (ra, D) ->
  exists R, open_im t junk' c1' c2' (with_size se b) al' D ob = Some (1, R) /\ open_im t junk2 c3 c4 (with_size se (Z.max a b)) al2 A oc = Some (1, R).
Proof.
  intros HA L2 HD L2' HC L4 TA HG Ha Hb H. apply open_val in H; [|exact HA|exact L2|apply good_sized; assumption]. injection H as _ ->.
  pose proof HA as ((WA & _) & _). pose proof (typed_px t A (sz A) WA TA eq_refl) as TA'.
  destruct HD as (GD & WD & SD & AD & LD). rewrite (open_eq t junk' _ _ GD (good_sized se (sz A) b HG Hb) c1' c2' al' ob LD L2' WD SD AD).
  destruct HC as (GC & WC & SC & AC & LC). rewrite (open_eq t junk2 _ _ GC (good_sized se (sz A) (Z.max a b) HG ltac:(lia)) c3 c4 al2 oc LC L4 WC SC AC).
  eexists. split; [reflexivity|]. do 2 f_equal. cbn [sz mk_img]. apply mk_img_ext. intros x y z Hi. cbn [with_size se_size].
  transitivity (opn t (sz A) se (Z.to_nat b) (opn t (sz A) se (Z.to_nat a) (pxv A)) x y z).
  - rewrite (opn_opn t (sz A) se (gse_ne _ _ HG) (gse_pl _ _ HG)) by assumption. replace (Nat.max (Z.to_nat b) (Z.to_nat a)) with (Z.to_nat (Z.max a b)) by lia. reflexivity.
  - symmetry. apply (opn_ext t (sz A) se (Z.to_nat b)); [|exact Hi]. intros. apply pxv_mk; [apply WA|assumption].
Qed.
