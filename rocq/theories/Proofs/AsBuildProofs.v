From Verif Require Export Proofs.GeodesicFilters Proofs.AsfProofs2 Spec.AsBuildSpec.
Local Open Scope Z_scope.

Lemma flows_sized lim se k marker mask x y z v : flows lim (with_size se k) marker mask x y z v <-> flows lim se marker mask x y z v.
Proof. split; (eapply flows_points; [reflexivity|]); intros; assumption. Qed.
Lemma rebuilt_sized se k marker mask R : rebuilt (with_size se k) marker mask R <-> rebuilt se marker mask R.
Proof.
  split; intros (S & W & H); (split; [exact S|]); (split; [exact W|]); intros x y z v Hv; destruct (H _ _ _ _ Hv) as (A & B); split.
  - apply (proj1 (flows_sized _ _ _ _ _ _ _ _ _)) in A. exact A.
  - intros u Hu. apply B, flows_sized, Hu.
  - apply flows_sized. exact A.
  - intros u Hu. apply flows_sized in Hu. apply B, Hu.
Qed.
Lemma dual_rebuilt_sized se k marker mask R : dual_rebuilt (with_size se k) marker mask R <-> dual_rebuilt se marker mask R.
Proof.
  split; intros (S & W & H); (split; [exact S|]); (split; [exact W|]); intros x y z v Hv; destruct (H _ _ _ _ Hv) as (A & B); split.
  - apply (proj1 (flows_sized _ _ _ _ _ _ _ _ _)) in A. exact A.
  - intros u Hu. apply B, flows_sized, Hu.
  - apply flows_sized. exact A.
  - intros u Hu. apply flows_sized in Hu. apply B, Hu.
Qed.

(** Images that agree pixelwise in both directions are equal. *)
Lemma same_img A B s : wf_img A -> wf_img B -> sz A = s -> sz B = s -> leq s (pxv A) (pxv B) -> leq s (pxv B) (pxv A) -> A = B.
Proof.
  intros WA WB SA SB H1 H2. rewrite (img_mk A WA), (img_mk B WB), SA, SB. apply mk_img_ext. intros x y z Hi. specialize (H1 x y z Hi). specialize (H2 x y z Hi). lia.
Qed.

Lemma le_img_self a : le_img a a.
Proof. intros x y z u v Hu Hv. rewrite (pixel_is_fun _ _ _ _ _ _ Hu Hv). lia. Qed.

Section Rec.
Context (t : ity) (se : strelt) (s : dims) (c : nat -> conf).
Context (Ht : t = UINT8 \/ t = UINT16) (Ws : wf_dims s) (W0 : 0 < dw s) (W1 : 0 < dh s) (W2 : 0 < dd s) (WB : dw s < 2 ^ 63).
Context (HI : int_sized s) (HJ : int_points se) (HG : good_se se s) (Lc : forall k, legal_conf (dh s) (c k)).

Definition img_of (A : img) : Prop := wf_img A /\ sz A = s /\ typed_img t A.
Definition recO (n : nat) (A : img) : img :=
  match buildOpen (2 * length (pixs A)) t (fun _ => 0) c (with_size se (Z.of_nat n)) false A A with Some (Some (_, R)) => R | _ => A end.
Definition recC (n : nat) (A : img) : img :=
  match buildClose (2 * length (pixs A)) t (fun _ => 0) c (with_size se (Z.of_nat n)) false A A with Some (Some (_, R)) => R | _ => A end.

Lemma of_good A : img_of A -> good_img A.
Proof. intros (W & S & _). split; [exact W|]. unfold nonempty. rewrite S. auto. Qed.
Lemma of_call junk cs n A out : img_of A -> sz out = s -> (forall k, legal_conf (dh s) (cs k)) -> 0 <= n -> open_call t junk cs (with_size se n) A out.
Proof.
  intros HA So L Hn. pose proof HA as (W & S & T). split; [|split].
  - split; [exact Ht|]. split; [exact W|]. split; [congruence|]. split; [exact T|]. rewrite S. split; [exact HI|]. split; [exact HJ|]. apply HG.
  - apply new_call; [apply of_good; exact HA|]. rewrite S. exact L.
  - rewrite S. apply good_sized; assumption.
Qed.

Lemma open_any fuel junk cs n A out : img_of A -> sz out = s -> (forall k, legal_conf (dh s) (cs k)) -> enough A fuel ->
  exists R, buildOpen fuel t junk cs (with_size se (Z.of_nat n)) false A out = Some (Some (1, R)) /\ img_of R /\ rebuilt se (mk_img s (er t s se n (pxv A))) A R.
Proof.
  intros HA So L F. pose proof (of_call junk cs (Z.of_nat n) A out HA So L ltac:(lia)) as C. pose proof C as (G & C1 & C2).
  destruct (buildOpen_ok fuel t junk cs _ A out G C1 C2 F) as (E & R & _ & H & _). exists R. split; [exact H|].
  destruct (buildOpen_val _ _ _ _ _ _ _ _ _ C F H) as (_ & WR & SR & TR & HB). destruct HA as (_ & S & _). split; [split; [exact WR|]; split; [congruence|exact TR]|].
  apply (proj1 (rebuilt_sized _ _ _ _ _)) in HB. rewrite S in HB. rewrite <- (Nat2Z.id n) at 1. exact HB.
Qed.
Lemma close_any fuel junk cs n A out : img_of A -> sz out = s -> (forall k, legal_conf (dh s) (cs k)) -> enough A fuel ->
  exists R, buildClose fuel t junk cs (with_size se (Z.of_nat n)) false A out = Some (Some (1, R)) /\ img_of R /\ dual_rebuilt se (mk_img s (dl t s se n (pxv A))) A R.
Proof.
  intros HA So L F. pose proof (of_call junk cs (Z.of_nat n) A out HA So L ltac:(lia)) as C. pose proof C as (G & C1 & C2).
  destruct (buildClose_ok fuel t junk cs _ A out G C1 C2 F) as (E & R & _ & H & _). exists R. split; [exact H|].
  destruct (buildClose_val _ _ _ _ _ _ _ _ _ C F H) as (_ & WR & SR & TR & HB). destruct HA as (_ & S & _). split; [split; [exact WR|]; split; [congruence|exact TR]|].
  apply (proj1 (dual_rebuilt_sized _ _ _ _ _)) in HB. rewrite S in HB. rewrite <- (Nat2Z.id n) at 1. exact HB.
Qed.

Lemma recO_ok n A : img_of A -> img_of (recO n A) /\ rebuilt se (mk_img s (er t s se n (pxv A))) A (recO n A).
Proof.
  intros HA. destruct (open_any (2 * length (pixs A)) (fun _ => 0) c n A A HA (proj1 (proj2 HA)) Lc (Nat.le_refl _)) as (R & E & H). unfold recO. rewrite E. exact H.
Qed.
Lemma recC_ok n A : img_of A -> img_of (recC n A) /\ dual_rebuilt se (mk_img s (dl t s se n (pxv A))) A (recC n A).
Proof.
  intros HA. destruct (close_any (2 * length (pixs A)) (fun _ => 0) c n A A HA (proj1 (proj2 HA)) Lc (Nat.le_refl _)) as (R & E & H). unfold recC. rewrite E. exact H.
Qed.
Lemma open_is fuel junk cs n A out : img_of A -> sz out = s -> (forall k, legal_conf (dh s) (cs k)) -> enough A fuel ->
  buildOpen fuel t junk cs (with_size se (Z.of_nat n)) false A out = Some (Some (1, recO n A)).
Proof.
  intros HA So L F. destruct (open_any fuel junk cs n A out HA So L F) as (R & E & _ & H). rewrite E. do 3 f_equal. eapply rebuilt_fun; [exact H|]. apply recO_ok. exact HA.
Qed.
Lemma close_is fuel junk cs n A out : img_of A -> sz out = s -> (forall k, legal_conf (dh s) (cs k)) -> enough A fuel ->
  buildClose fuel t junk cs (with_size se (Z.of_nat n)) false A out = Some (Some (1, recC n A)).
Proof.
  intros HA So L F. destruct (close_any fuel junk cs n A out HA So L F) as (R & E & _ & H). rewrite E. do 3 f_equal. eapply dual_rebuilt_fun; [exact H|]. apply recC_ok. exact HA.
Qed.

Definition below (A B : img) : Prop := leq s (pxv A) (pxv B).
Lemma below_le A B : img_of A -> img_of B -> (le_img A B <-> below A B).
Proof. intros (WA & SA & _) (WB' & SB & _). apply le_lr; assumption. Qed.
Lemma below_refl A : below A A.
Proof. apply leq_refl. Qed.
Lemma below_trans A B C : below A B -> below B C -> below A C.
Proof. apply leq_trans. Qed.

Lemma recO_T n A : img_of A -> img_of (recO n A).
Proof. apply recO_ok. Qed.
Lemma recC_T n A : img_of A -> img_of (recC n A).
Proof. apply recC_ok. Qed.
Lemma of_typed A : img_of A -> typedf t s (pxv A).
Proof. intros (W & S & T). apply typed_px; assumption. Qed.

Lemma recO_incr n A B : img_of A -> img_of B -> below A B -> below (recO n A) (recO n B).
Proof.
  intros HA HB H. apply (proj1 (below_le _ _ (recO_T n A HA) (recO_T n B HB))). pose proof HA as (WA & SA & _). pose proof HB as (WB' & SB & _).
  eapply rebuilt_increasing; [| | | | | |apply recO_ok; exact HA|apply recO_ok; exact HB]; auto using mk_img_wf; try (cbn [sz mk_img]; congruence).
  - apply le_img_leq; [exact Ws|]. apply er_incr; auto using of_typed; [apply (gse_ne _ _ HG)|apply (gse_pl _ _ HG)].
  - apply below_le; assumption.
Qed.
Lemma recC_incr n A B : img_of A -> img_of B -> below A B -> below (recC n A) (recC n B).
Proof.
  intros HA HB H. apply (proj1 (below_le _ _ (recC_T n A HA) (recC_T n B HB))). pose proof HA as (WA & SA & _). pose proof HB as (WB' & SB & _).
  eapply dual_rebuilt_increasing; [| | | | | |apply recC_ok; exact HA|apply recC_ok; exact HB]; auto using mk_img_wf; try (cbn [sz mk_img]; congruence).
  - apply le_img_leq; [exact Ws|]. apply dl_incr; auto using of_typed; [apply (gse_ne _ _ HG)|apply (gse_pl _ _ HG)].
  - apply below_le; assumption.
Qed.
Lemma recO_below n A : img_of A -> below (recO n A) A.
Proof.
  intros HA. apply (proj1 (below_le _ _ (recO_T n A HA) HA)). destruct (recO_ok n A HA) as (_ & _ & _ & H). intros x y z u v Hu Hv. eapply flows_le_mask; [|exact Hv]. apply (H _ _ _ _ Hu).
Qed.
Lemma recC_above n A : img_of A -> below A (recC n A).
Proof.
  intros HA. apply (proj1 (below_le _ _ HA (recC_T n A HA))). destruct (recC_ok n A HA) as (_ & _ & _ & H). intros x y z u v Hu Hv. eapply flows_ge_mask; [|exact Hu]. apply (H _ _ _ _ Hv).
Qed.

Context (Ho : In (0, 0, 0) (se_points se)) (Hsym : symmetric_se se).

Lemma er_decr n m F : (n <= m)%nat -> typedf t s F -> leq s (er t s se m F) (er t s se n F).
Proof.
  intros L TF. replace m with ((m - n) + n)%nat by lia. rewrite er_add. intros x y z Hi. apply (en_self t se s Ho (gse_pl _ _ HG)); [|exact Hi].
  apply er_typed; [apply (gse_ne _ _ HG)|exact TF].
Qed.
Lemma dl_grow n m F : (n <= m)%nat -> typedf t s F -> leq s (dl t s se n F) (dl t s se m F).
Proof.
  intros L TF. replace m with ((m - n) + n)%nat by lia. rewrite dl_add. intros x y z Hi. apply (dn_self t se s Ho); [|exact Hi].
  apply dl_typed; [apply (gse_ne _ _ HG)|exact TF].
Qed.

Lemma recO_absorb n m A : (n <= m)%nat -> img_of A -> below (recO m A) (recO n (recO m A)).
Proof.
  intros L HA. destruct (recO_ok m A HA) as (TR & HB). set (R := recO m A) in *. pose proof (gse_ne _ _ HG) as Hne. pose proof (gse_pl _ _ HG) as HP.
  apply (proj1 (below_le _ _ TR (recO_T n R TR))). destruct (recO_ok n R TR) as (_ & HB'). pose proof HA as (WA & SA & TA). pose proof TR as (WR & SR & _).
  pose proof (open_below_rebuilt t se s A R Ho HP WA SA TA m HB) as K. apply (adjn t s se Hne HP) in K; [|apply en_typed; auto using of_typed|apply of_typed; exact TR].
  eapply rebuilt_increasing; [| | | | | |eapply rebuilt_own_mask; exact HB|exact HB']; auto using mk_img_wf, le_img_self.
  apply le_img_leq; [exact Ws|]. eapply leq_trans; [exact K|]. apply (er_decr n m); auto using of_typed.
Qed.
Lemma recC_absorb n m A : (n <= m)%nat -> img_of A -> below (recC n (recC m A)) (recC m A).
Proof.
  intros L HA. destruct (recC_ok m A HA) as (TR & HB). set (R := recC m A) in *. pose proof (gse_ne _ _ HG) as Hne. pose proof (gse_pl _ _ HG) as HP.
  apply (proj1 (below_le _ _ (recC_T n R TR) TR)). destruct (recC_ok n R TR) as (_ & HB'). pose proof HA as (WA & SA & TA). pose proof TR as (WR & SR & _).
  pose proof (close_above_rebuilt t se s A R Ho HP WA SA TA m Hsym HB) as K. apply (adjn t s se Hne HP) in K; [|apply of_typed; exact TR|apply dn_typed; auto using of_typed].
  eapply dual_rebuilt_increasing; [| | | | | |exact HB'|eapply dual_rebuilt_own_mask; exact HB]; auto using mk_img_wf, le_img_self.
  apply le_img_leq; [exact Ws|]. eapply leq_trans; [|exact K]. apply (dl_grow n m); auto using of_typed.
Qed.
End Rec.

(** ** The loops *)
Section Loop.
Context (s : dims) (T : img -> Prop) (first second : Z -> img -> img -> option (option (Z * img))) (a b : nat -> img -> img).
Hypothesis Ts : forall A, T A -> sz A = s.
Hypothesis Ta : forall n A, T A -> T (a n A).
Hypothesis Tb : forall n A, T A -> T (b n A).
Hypothesis H1 : forall n A out, T A -> sz out = s -> first (Z.of_nat n) A out = Some (Some (1, b n A)).
Hypothesis H2 : forall n A out, T A -> sz out = s -> second (Z.of_nat n) A out = Some (Some (1, a n A)).
Lemma as_turns n : forall i A out, T A -> sz out = s -> as_loop first second n (Z.of_nat i + 1) A out = Some (Some (1, MidFrom a b i n A)).
Proof.
  induction n as [|n IH]; intros i A out HA So; [reflexivity|]. cbn [as_loop]. replace (Z.of_nat i + 1) with (Z.of_nat (S i)) by lia.
  rewrite H1 by assumption. cbn [fuel_bind negb Z.eqb Pos.eqb]. rewrite H2 by auto. cbn [fuel_bind negb Z.eqb Pos.eqb].
  rewrite IH by auto. reflexivity.
Qed.
End Loop.
