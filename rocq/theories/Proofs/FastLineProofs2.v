(** Soille's algorithm on all the lines of an image. *)
From Verif Require Import Spec.FastLineSpec Proofs.ImageFacts Proofs.PreludeFacts Proofs.FastLineProofs1.

Lemma rd_zero {A} (x : A) l : rd (x :: l) 0 = Some x.
Proof. reflexivity. Qed.
Lemma rd_next {A} (x : A) l i : 0 <= i -> rd (x :: l) (i + 1) = rd l i.
Proof. intros Hi. unfold rd. replace (0 <=? i + 1) with true by (symmetry; apply Z.leb_le; lia). replace (0 <=? i) with true by (symmetry; apply Z.leb_le; lia). replace (Z.to_nat (i + 1)) with (S (Z.to_nat i)) by lia. reflexivity. Qed.

Lemma write_ok : forall (p r out : list Z), NoDup p -> length r = length p -> (forall o, In o p -> 0 <= o < Z.of_nat (length out)) ->
  exists out', fold_opt (fun out '(o, v) => wr out o v) (combine p r) out = Some out' /\ length out' = length out /\
    (forall o, ~ In o p -> rd out' o = rd out o) /\ forall i o, rd p i = Some o -> rd out' o = rd r i.
Proof.
  induction p as [|o p IH]; intros r out ND HL HR.
  - exists out. repeat split; auto. intros i o E. apply rd_Some_range in E. cbn in E. lia.
  - destruct r as [|v r]; [discriminate|]. inversion ND as [|? ? Hno ND']; subst. cbn [combine fold_opt]. destruct (wr_Some out o v (HR o (or_introl eq_refl))) as (out1 & W). rewrite W. pose proof (wr_length _ _ _ _ W) as L1.
    destruct (IH r out1 ND' ltac:(cbn in HL; lia) ltac:(intros o' Ho'; rewrite L1; apply HR; right; exact Ho')) as (out' & E & L & H1 & H2). exists out'. split; [exact E|]. split; [lia|]. split.
    + intros o' Ho'. rewrite H1 by (intros C; apply Ho'; right; exact C). rewrite (rd_wr _ _ _ _ _ W). replace (o =? o') with false; [reflexivity|]. symmetry. apply Z.eqb_neq. intros ->. apply Ho'. left. reflexivity.
    + intros i o' Hi. pose proof (rd_Some_range _ _ _ Hi) as Ri. destruct (Z.eq_dec i 0) as [->|Hi0].
      * rewrite rd_zero in Hi. injection Hi as <-. rewrite H1 by exact Hno. rewrite (rd_wr _ _ _ _ _ W), Z.eqb_refl. reflexivity.
      * replace i with (i - 1 + 1) in * by lia. rewrite rd_next in Hi by lia. rewrite rd_next by lia. apply H2. exact Hi.
Qed.

Section Lines.
Variables (kd : line_kind) (r : Z) (alias : bool) (px : list Z) (V : Z -> Z) (N : Z).
Hypothesis (Hr : 0 <= r) (Hk : 2 * r + 1 < 2 ^ 62) (HN62 : N <= 2 ^ 62).

Definition okline (p : list Z) (len : Z) : Prop :=
  NoDup p /\ 1 <= Z.of_nat (length p) <= N /\ (forall o, In o p -> 0 <= o < len) /\ (kd <> Any -> Z.of_nat (length p) <> 1 /\ Z.of_nat (length p) <> 2 * r + 1).
Definition okresult (p out' : list Z) : Prop :=
  forall x o, rd p x = Some o -> exists v, rd out' o = Some v /\ top_of (fun i => V (znth 0 p i)) (Z.max 0 (x - r)) (Z.min (Z.of_nat (length p)) (x + r + 1)) v.

Lemma dilate_line_ok p out b : okline p (Z.of_nat (length out)) -> buf_len b N -> (forall o, In o p -> rd (if alias then out else px) o = Some (V o)) ->
  exists out' b', dilate_line kd (2 * r + 1) alias px p (out, b) = Some (out', b') /\ buf_len b' N /\ length out' = length out /\
    (forall o, ~ In o p -> rd out' o = rd out o) /\ okresult p out'.
Proof using Hr Hk HN62.
  intros (ND & Hl & HR & HK) HB HS. unfold dilate_line. set (src := if alias then out else px) in *.
  destruct (all_some_total (rd src) p) as (f & E1 & E2). { intros o Ho. exists (V o). apply HS, Ho. }
  rewrite E1. cbn [option_bind]. assert (length f = length p) as Lf. { apply (f_equal (@length _)) in E2. rewrite !map_length in E2. lia. }
  assert (forall i, 0 <= i < Z.of_nat (length f) -> rd f i = Some (V (znth 0 p i))) as HF.
  { intros i Hi. apply (f_equal (fun l => rd l i)) in E2. rewrite !rd_map in E2. destruct (rd_in_range p i ltac:(lia)) as (o & Ro). rewrite (znth_rd 0 _ _ _ Ro). rewrite Ro in E2. cbn [option_map] in E2. rewrite HS in E2 by (eapply rd_In; exact Ro).
    destruct (rd f i); cbn in E2; congruence. }
  destruct (dilate_values_ok kd r f (fun i => V (znth 0 p i)) b N Hr Hk ltac:(lia) ltac:(lia) HB HF ltac:(rewrite Lf; exact HK)) as (res & b' & -> & HB' & Lr & HT). cbn [option_bind].
  destruct (write_ok p res out ND ltac:(lia) HR) as (out' & -> & L' & H1 & H2). cbn [option_bind]. exists out', b'. split; [reflexivity|]. split; [exact HB'|]. split; [exact L'|]. split; [exact H1|].
  intros x o Ho. rewrite (H2 x o Ho). pose proof (rd_Some_range _ _ _ Ho) as Rx. destruct (HT x ltac:(lia)) as (v & E & T). exists v. split; [exact E|]. rewrite <- Lf. exact T.
Qed.

Lemma okresult_ext p out out' : okresult p out -> (forall o, In o p -> rd out' o = rd out o) -> okresult p out'.
Proof using. intros H HE x o Ho. destruct (H x o Ho) as (v & E & T). exists v. split; [|exact T]. rewrite HE; [exact E|eapply rd_In; exact Ho]. Qed.

Lemma dilate_lines_ok (L : Z -> list Z) len : forall js out b, NoDup js -> Z.of_nat (length out) = len -> (forall j, In j js -> okline (L j) len) ->
  (forall i j o, In i js -> In j js -> In o (L i) -> In o (L j) -> i = j) -> buf_len b N -> (forall j o, In j js -> In o (L j) -> rd (if alias then out else px) o = Some (V o)) ->
  exists out' b', fold_opt (fun s j => dilate_line kd (2 * r + 1) alias px (L j) s) js (out, b) = Some (out', b') /\ buf_len b' N /\ length out' = length out /\
    (forall o, (forall j, In j js -> ~ In o (L j)) -> rd out' o = rd out o) /\ forall j, In j js -> okresult (L j) out'.
Proof using Hr Hk HN62.
  induction js as [|j js IH]; intros out b ND HL HO HD HB HS.
  - exists out, b. repeat split; auto. intros j [].
  - inversion ND as [|? ? Hnj ND']; subst len. cbn [fold_opt].
    destruct (dilate_line_ok (L j) out b (HO j (or_introl eq_refl)) HB (fun o => HS j o (or_introl eq_refl))) as (out1 & b1 & -> & HB1 & L1 & U1 & R1).
    assert (forall i o, In i js -> In o (L i) -> ~ In o (L j)) as HDj by (intros i o Hi Ho C; apply Hnj; rewrite <- (HD i j o (or_intror Hi) (or_introl eq_refl) Ho C); exact Hi).
    destruct (IH out1 b1 ND' ltac:(lia) (fun i Hi => HO i (or_intror Hi)) (fun i i' o Hi Hi' => HD i i' o (or_intror Hi) (or_intror Hi')) HB1) as (out' & b' & -> & HB' & L' & U' & R').
    { intros i o Hi Ho. pose proof (HS i o (or_intror Hi) Ho) as S. destruct alias; [|exact S]. rewrite U1; [exact S|]. apply (HDj i); assumption. }
    exists out', b'. split; [reflexivity|]. split; [exact HB'|]. split; [lia|]. split.
    + intros o Ho. rewrite U' by (intros i Hi; apply Ho; right; exact Hi). apply U1. apply Ho. left. reflexivity.
    + intros i [<-|Hi]; [|apply R'; exact Hi]. apply (okresult_ext _ out1); [exact R1|]. intros o Ho. apply U'. intros i Hi C. apply (HDj i o Hi C Ho).
Qed.
End Lines.

(** ** Lines as graphs of functions *)

Section System.
Variables (M m s : Z) (c : Z -> Z) (off : Z -> Z -> Z) (len : Z).
Hypothesis (HM : 1 <= M) (Hm : 1 <= m).
Hypothesis (Hinj : forall a b a' b', 0 <= a < M -> 0 <= b < m -> 0 <= a' < M -> 0 <= b' < m -> off a b = off a' b' -> a = a' /\ b = b').
Hypothesis (Hrange : forall a b, 0 <= a < M -> 0 <= b < m -> 0 <= off a b < len).

(** [p] is the list of the pixels (a, b + s * c a) of the image. *)
Definition line_is (b : Z) (p : list Z) : Prop :=
  exists lo n, 0 <= n /\ p = map (fun a => off a (b + s * c a)) (zrange lo n) /\ forall a, (0 <= a < M /\ 0 <= b + s * c a < m) <-> lo <= a < lo + n.

Lemma line_pixels b p : line_is b p -> forall o, In o p <-> exists a, 0 <= a < M /\ 0 <= b + s * c a < m /\ o = off a (b + s * c a).
Proof using.
  intros (lo & n & Hn & -> & HA) o. rewrite in_map_iff. split.
  - intros (a & <- & Ha). apply zrange_In in Ha. apply HA in Ha. exists a. tauto.
  - intros (a & H1 & H2 & ->). exists a. split; [reflexivity|]. apply zrange_In, HA. tauto.
Qed.
Lemma line_NoDup b p : line_is b p -> NoDup p.
Proof using Hinj.
  intros (lo & n & Hn & -> & HA). assert (forall l, NoDup l -> (forall a, In a l -> 0 <= a < M /\ 0 <= b + s * c a < m) -> NoDup (map (fun a => off a (b + s * c a)) l)) as HH.
  { induction l as [|a l IH]; intros ND H; [constructor|]. inversion ND as [|? ? Ha ND']; subst. cbn [map]. constructor; [|apply IH; [exact ND'|intros a' Ha'; apply H; right; exact Ha']].
    intros C. apply in_map_iff in C. destruct C as (a' & E & Ha'). destruct (H a (or_introl eq_refl)) as (P1 & P2). destruct (H a' (or_intror Ha')) as (Q1 & Q2). destruct (Hinj _ _ _ _ Q1 Q2 P1 P2 E) as (-> & _). exact (Ha Ha'). }
  apply HH; [apply zrange_NoDup|]. intros a Ha. apply zrange_In in Ha. apply HA, Ha.
Qed.
Lemma line_length b p : line_is b p -> Z.of_nat (length p) <= M.
Proof using HM.
  clear Hinj Hrange Hm. intros (lo & n & Hn & -> & HA). rewrite map_length, zrange_length, Z2Nat.id by lia. destruct (Z.eq_dec n 0) as [->|C]; [lia|].
  destruct (proj2 (HA lo) ltac:(lia)) as (P & _). destruct (proj2 (HA (lo + n - 1)) ltac:(lia)) as (Q & _). lia.
Qed.
Lemma line_index b p a : line_is b p -> 0 <= a < M -> 0 <= b + s * c a < m -> exists lo, Z.of_nat (length p) >= 1 /\
  (forall a', 0 <= a' < M -> 0 <= b + s * c a' < m -> 0 <= a' - lo < Z.of_nat (length p) /\ rd p (a' - lo) = Some (off a' (b + s * c a'))) /\
  forall i, 0 <= i < Z.of_nat (length p) -> 0 <= lo + i < M /\ 0 <= b + s * c (lo + i) < m /\ rd p i = Some (off (lo + i) (b + s * c (lo + i))).
Proof using.
  clear Hinj Hrange HM Hm.
  intros (lo & n & Hn & -> & HA) H1 H2. exists lo. rewrite map_length, zrange_length, Z2Nat.id by lia. pose proof (proj1 (HA a) (conj H1 H2)) as Ha. split; [lia|]. split.
  - intros a' P1 P2. pose proof (proj1 (HA a') (conj P1 P2)) as Ha'. split; [lia|]. rewrite rd_map, rd_zrange by lia. cbn [option_map]. do 2 f_equal; lia || (replace (lo + (a' - lo)) with a' by lia; reflexivity).
  - intros i Hi. destruct (proj2 (HA (lo + i)) ltac:(lia)) as (P1 & P2). split; [exact P1|]. split; [exact P2|]. rewrite rd_map, rd_zrange by lia. reflexivity.
Qed.

Variables (kd : line_kind) (r : Z) (alias : bool) (px : list Z) (V : Z -> Z) (N : Z).
Hypothesis (Hr : 0 <= r) (Hk : 2 * r + 1 < 2 ^ 62) (HN62 : N <= 2 ^ 62) (HMN : M <= N).

Lemma system_ok (L : Z -> list Z) (B : Z -> Z) (js out : list Z) (b : bufs) :
  NoDup js -> Z.of_nat (length out) = len -> (forall j, In j js -> line_is (B j) (L j) /\ L j <> []) -> (forall i j, In i js -> In j js -> B i = B j -> i = j) ->
  (forall j, In j js -> kd <> Any -> Z.of_nat (length (L j)) <> 1 /\ Z.of_nat (length (L j)) <> 2 * r + 1) -> buf_len b N ->
  (forall o, 0 <= o < len -> rd (if alias then out else px) o = Some (V o)) ->
  exists out' b', fold_opt (fun s j => dilate_line kd (2 * r + 1) alias px (L j) s) js (out, b) = Some (out', b') /\ length out' = length out /\
    forall j a y, In j js -> 0 <= a < M -> 0 <= y < m -> B j = y - s * c a -> exists v, rd out' (off a y) = Some v /\
      (exists a' y', 0 <= a' < M /\ 0 <= y' < m /\ y' - s * c a' = y - s * c a /\ Z.abs (a' - a) <= r /\ V (off a' y') = v) /\
      forall a' y', 0 <= a' < M -> 0 <= y' < m -> y' - s * c a' = y - s * c a -> Z.abs (a' - a) <= r -> V (off a' y') <= v.
Proof using HM Hm Hinj Hrange Hr Hk HN62 HMN.
  intros ND HL HLI HB HKD HBL HS.
  destruct (dilate_lines_ok kd r alias px V N Hr Hk HN62 L len js out b ND HL) as (out' & b' & E & HB' & L' & U' & R'); [| |exact HBL| |].
  - intros j Hj. destruct (HLI j Hj) as (HI & HNE). split; [apply (line_NoDup (B j)), HI|]. split; [|split].
    + pose proof (line_length _ _ HI). destruct (L j); [congruence|cbn [length] in *; lia].
    + intros o Ho. apply (line_pixels _ _ HI) in Ho. destruct Ho as (a & P1 & P2 & ->). apply Hrange; assumption.
    + intros HK'. apply HKD; assumption.
  - intros i j o Hi Hj Oi Oj. destruct (HLI i Hi) as (Ii & _). destruct (HLI j Hj) as (Ij & _). apply (line_pixels _ _ Ii) in Oi. apply (line_pixels _ _ Ij) in Oj. destruct Oi as (a & A1 & A2 & ->). destruct Oj as (a' & B1 & B2 & EO).
    destruct (Hinj _ _ _ _ A1 A2 B1 B2 EO) as (-> & EB). apply HB; [assumption|assumption|lia].
  - intros j o Hj Ho. apply HS. destruct (HLI j Hj) as (Ij & _). apply (line_pixels _ _ Ij) in Ho. destruct Ho as (a & P1 & P2 & ->). apply Hrange; assumption.
  - exists out', b'. split; [exact E|]. split; [exact L'|]. intros j a y Hj Ha Hy EB. destruct (HLI j Hj) as (Ij & _). assert (B j + s * c a = y) as EY by lia.
    destruct (line_index _ _ a Ij Ha ltac:(lia)) as (lo & Hlen & HI1 & HI2). destruct (HI1 a Ha ltac:(lia)) as (Hx & Rx). rewrite EY in Rx. destruct (R' j Hj _ _ Rx) as (v & Ev & ((i & Hi & Vi) & Hmax)). exists v. split; [exact Ev|]. split.
    + destruct (HI2 i ltac:(lia)) as (Q1 & Q2 & Q3). exists (lo + i), (B j + s * c (lo + i)). split; [exact Q1|]. split; [exact Q2|]. split; [lia|]. split; [lia|]. rewrite (znth_rd 0 _ _ _ Q3) in Vi. exact Vi.
    + intros a' y' Ha' Hy' EL HA. assert (y' = B j + s * c a') as -> by lia. destruct (HI1 a' Ha' Hy') as (Hx' & Rx'). specialize (Hmax (a' - lo) ltac:(lia)). cbv beta in Hmax. rewrite (znth_rd 0 _ _ _ Rx') in Hmax. exact Hmax.
Qed.
End System.
