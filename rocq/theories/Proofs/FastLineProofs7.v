(** Morard's opening on an image. *)
From Verif Require Import Proofs.ImageFacts Proofs.PreludeFacts Proofs.LoopFacts Proofs.MorphProofs Proofs.HitOrMissProofs Proofs.GeodesicUses Proofs.FastLineProofs2 Proofs.FastLineProofs3 Proofs.FastLineProofs4 Proofs.FastLineProofs6 Spec.FastLineSpec Model.FastLine.

Section Lines.
Variables (size : Z) (alias : bool) (px : list Z) (V : Z -> Z) (N vmin : Z).
Hypothesis (Hs : 1 <= size).

Definition state_ok (s : mstate) : Prop := N <= Z.of_nat (length (ms_idx s)) /\ Z.of_nat (length (ms_stack s)) = 256.
Definition okrow (p : list Z) (len : Z) : Prop :=
  NoDup p /\ 1 <= Z.of_nat (length p) <= N /\ (forall o, In o p -> 0 <= o < len) /\ (forall o, In o p -> vmin <= V o <= vmin + 255).
Definition okopened (p out' : list Z) : Prop :=
  forall x o, rd p x = Some o -> exists v, rd out' o = Some v /\ length_opened (fun i => V (znth 0 p i)) (Z.of_nat (length p)) (Z.min size (Z.of_nat (length p))) x v.

Lemma NoDup_rd (p : list Z) i j o : NoDup p -> rd p i = Some o -> rd p j = Some o -> i = j.
Proof using. clear.
  intros ND Ei Ej. pose proof (rd_Some_range _ _ _ Ei). pose proof (rd_Some_range _ _ _ Ej). unfold rd in *. destruct (0 <=? i); [|discriminate]. destruct (0 <=? j); [|discriminate].
  rewrite NoDup_nth_error in ND. apply Z2Nat.inj; [lia|lia|]. apply ND; [apply nth_error_Some; congruence|congruence].
Qed.

Lemma open_line_ok p s : okrow p (Z.of_nat (length (ms_out s))) -> state_ok s -> (forall o, In o p -> rd (if alias then ms_out s else px) o = Some (V o)) ->
  exists s', open_line alias size px p s = Some s' /\ state_ok s' /\ length (ms_out s') = length (ms_out s) /\ (forall o, ~ In o p -> rd (ms_out s') o = rd (ms_out s) o) /\ okopened p (ms_out s').
Proof using Hs.
  intros (ND & HL & HR & HVt) (SI & SS) HV. set (n := Z.of_nat (length p)) in *. set (P := fun i => znth 0 p i). set (f := fun i => V (P i)). set (len := Z.of_nat (length (ms_out s))) in *. destruct s as [wp0 idx0 st0 k0 out0]. cbn [ms_idx ms_stack ms_out ms_wp ms_size] in *.
  assert (forall i, 0 <= i < n -> rd p i = Some (P i)) as HPr. { intros i Hi. destruct (rd_in_range p i ltac:(lia)) as (o & E). unfold P. rewrite (znth_rd 0 _ _ _ E). exact E. }
  assert (forall i, 0 <= i < n -> In (P i) p) as HIn by (intros i Hi; eapply rd_In; apply HPr, Hi).
  assert (forall i, 0 <= i < n -> 0 <= P i < len) as H1 by (intros i Hi; apply HR, HIn, Hi).
  assert (forall i j, 0 <= i < n -> 0 <= j < n -> P i = P j -> i = j) as H2. { intros i j Hi Hj E. apply (NoDup_rd p i j (P i) ND (HPr i Hi)). rewrite E. apply HPr, Hj. }
  assert (forall i, 0 <= i < n -> vmin <= f i <= vmin + 255) as H3 by (intros i Hi; apply HVt, HIn, Hi).
  assert (exists o p', p = o :: p') as (o & p' & Ep). { destruct p as [|o p']; [cbn in n; unfold n in HL; lia|]. exists o, p'. reflexivity. }
  assert (P 0 = o) as P0 by (unfold P; rewrite Ep; reflexivity).
  unfold open_line, open_points. rewrite Ep. cbn [ms_out]. rewrite (HV o) by (rewrite Ep; left; reflexivity). cbn [option_bind ms_stack ms_idx].
  destruct (wr_Some st0 0 (Mn 0 false (V o)) ltac:(lia)) as (st & W1). rewrite W1. cbn [option_bind]. destruct (wr_Some idx0 0 o ltac:(lia)) as (idx & W2). rewrite W2. cbn [option_bind].
  pose proof (wr_length _ _ _ _ W1) as LS. pose proof (wr_length _ _ _ _ W2) as LX.
  assert (mstate_ok P n size len vmin f out0 (Ms 1 idx st 1 out0) 1) as S1.
  { apply (first_ok P n size len vmin f out0 H1 H2 Hs H3 st idx); try lia.
    - rewrite (rd_wr _ _ _ _ _ W1). cbn. unfold f. rewrite P0. reflexivity.
    - rewrite (rd_wr _ _ _ _ _ W2). cbn. rewrite P0. reflexivity. }
  assert (forall l wp s, 1 <= wp -> (forall i, 0 <= i < Z.of_nat (length l) -> rd l i = Some (P (wp + i))) -> wp + Z.of_nat (length l) = n -> mstate_ok P n size len vmin f out0 s wp -> exists s',
    fold_opt (fun s o => option_bind (rd (if alias then ms_out s else px) o) (fun v => BuildOpeningFromPoint size v o s)) l s = Some s' /\ length (ms_idx s') = length (ms_idx s) /\ mstate_ok P n size len vmin f out0 s' n) as HF.
  { induction l as [|q l IH]; intros wp s Hwp Hl Hn HS.
    - exists s. split; [reflexivity|]. split; [reflexivity|]. assert (wp = n) as E by (cbn in Hn; lia). rewrite E in HS. exact HS.
    - cbn [length] in *. pose proof (Hl 0 ltac:(lia)) as Q. rewrite rd_zero, Z.add_0_r in Q. injection Q as ->. cbn [fold_opt].
      assert (rd (if alias then ms_out s else px) (P wp) = Some (f wp)) as ->.
      { specialize (HV (P wp) (HIn wp ltac:(lia))). destruct alias; [|exact HV]. destruct HS as (_ & _ & _ & g & HJ). rewrite (j_unt _ _ _ _ _ _ _ _ _ _ _ _ HJ); [exact HV|]. intros i Hi E. apply H2 in E; lia. }
      cbn [option_bind]. destruct (build_ok P n size len vmin f out0 H1 H2 Hs H3 s wp HS ltac:(lia)) as (s1 & E1 & LI & S1'). rewrite E1.
      destruct (IH (wp + 1) s1 ltac:(lia)) as (s' & E' & LI' & S').
      + intros i Hi. rewrite <- (rd_next (P wp) l i) by lia. rewrite Hl by lia. f_equal. f_equal. lia.
      + lia.
      + exact S1'.
      + exists s'. split; [exact E'|]. split; [congruence|exact S']. }
  destruct (HF p' 1 (Ms 1 idx st 1 out0) ltac:(lia)) as (s1 & E1 & LI & (Ewp & LX1 & HX & g & HJ)).
  { intros i Hi. rewrite <- (rd_next o p' i) by lia. rewrite <- Ep. rewrite Z.add_comm. apply HPr. unfold n. rewrite Ep. cbn [length]. lia. }
  { unfold n. rewrite Ep. cbn [length]. lia. }
  { exact S1. }
  rewrite E1. cbn [option_bind]. unfold EndProcess. destruct s1 as [wp1 idx1 st1 k1 out1]. cbn [ms_wp ms_idx ms_stack ms_size ms_out] in *. subst wp1.
  destruct (mend_ok P n size len vmin f out0 H1 H2 Hs H3 idx1 k1 (Z.of_nat k1) st1 out1 g eq_refl HJ HX) as (out' & E & (F1 & F2 & F3)). rewrite E. cbn [option_map]. eexists. split; [reflexivity|].
  cbn [ms_out]. split; [split; cbn [ms_idx ms_stack]; [lia|apply (j_len _ _ _ _ _ _ _ _ _ _ _ _ HJ)]|]. split; [lia|]. split.
  - intros q Hq. rewrite <- Ep in Hq. apply F3. intros i Hi C. apply Hq. rewrite <- C. apply HIn, Hi.
  - rewrite <- Ep. intros x q Hq. pose proof (rd_Some_range _ _ _ Hq) as Hx. fold n in Hx. rewrite (HPr x Hx) in Hq. injection Hq as <-. exact (F2 x Hx).
Qed.

Lemma okopened_ext p out out' : okopened p out -> (forall o, In o p -> rd out' o = rd out o) -> okopened p out'.
Proof using. intros H HE x o Ho. destruct (H x o Ho) as (v & E & T). exists v. split; [|exact T]. rewrite HE; [exact E|eapply rd_In; exact Ho]. Qed.

Lemma open_lines_ok (L : Z -> list Z) len : forall js s, NoDup js -> Z.of_nat (length (ms_out s)) = len -> (forall j, In j js -> okrow (L j) len) ->
  (forall i j o, In i js -> In j js -> In o (L i) -> In o (L j) -> i = j) -> state_ok s -> (forall j o, In j js -> In o (L j) -> rd (if alias then ms_out s else px) o = Some (V o)) ->
  exists s', fold_opt (fun s j => open_line alias size px (L j) s) js s = Some s' /\ state_ok s' /\ length (ms_out s') = length (ms_out s) /\
    (forall o, (forall j, In j js -> ~ In o (L j)) -> rd (ms_out s') o = rd (ms_out s) o) /\ forall j, In j js -> okopened (L j) (ms_out s').
Proof using Hs.
  induction js as [|j js IH]; intros s ND HO HL HD HS HV; [exists s; repeat split; auto; try apply HS; intros; contradiction|]. inversion ND as [|? ? Hn ND']; subst. cbn [fold_opt].
  destruct (open_line_ok (L j) s (HL j (or_introl eq_refl)) HS ltac:(intros o Ho; apply (HV j); [left; reflexivity|exact Ho])) as (s1 & E1 & S1 & L1 & U1 & R1). rewrite E1.
  assert (forall i o, In i js -> In o (L i) -> ~ In o (L j)) as Hdis. { intros i o Hi Ho C. assert (i = j) as -> by (apply (HD i j o); [right; exact Hi|left; reflexivity|exact Ho|exact C]). contradiction. }
  destruct (IH s1 ND' ltac:(lia)) as (s' & E' & S' & L' & U' & R').
  - intros i Hi. apply HL. right. exact Hi.
  - intros i k o Hi Hk. apply HD; right; assumption.
  - exact S1.
  - intros i o Hi Ho. specialize (HV i o (or_intror Hi) Ho). destruct alias; [|exact HV]. rewrite U1; [exact HV|]. eapply Hdis; eassumption.
  - exists s'. split; [exact E'|]. split; [exact S'|]. split; [lia|]. split.
    + intros o Ho. rewrite U' by (intros i Hi; apply Ho; right; exact Hi). apply U1. apply Ho. left. reflexivity.
    + intros i [<-|Hi]; [|apply R'; exact Hi]. eapply okopened_ext; [exact R1|]. intros o Ho. apply U'. intros i Hi C. apply (Hdis i o Hi C Ho).
Qed.

(** [EndProcess] once more after a line of one pixel. *)
Lemma stale_ok o s s1 : open_line alias size px [o] s = Some s1 -> exists s2, open_line alias size px [] s1 = Some s2 /\ length (ms_out s2) = length (ms_out s1) /\ forall q, rd (ms_out s2) q = rd (ms_out s1) q.
Proof using Hs.
  unfold open_line at 1, open_points. destruct (rd (if alias then ms_out s else px) o) as [v|]; [|discriminate]. cbn [option_bind].
  destruct (wr (ms_stack s) 0 (Mn 0 false v)) as [st|] eqn:W1; [|discriminate]. cbn [option_bind]. destruct (wr (ms_idx s) 0 o) as [idx|] eqn:W2; [|discriminate]. cbn [option_bind fold_opt].
  assert (rd st 0 = Some (Mn 0 false v)) as R1 by (rewrite (rd_wr _ _ _ _ _ W1); reflexivity). assert (rd idx 0 = Some o) as R2 by (rewrite (rd_wr _ _ _ _ _ W2); reflexivity).
  assert (forall out, paint idx 0 1 v out = wr out o v) as HPa. { intros out. unfold paint. change (zrange 0 (1 - 0)) with [0]. cbn [fold_opt]. rewrite R2. cbn [option_bind]. destruct (wr out o v); reflexivity. }
  unfold EndProcess at 1.
  assert (mend 1 size 1 idx st (ms_out s) = wr (ms_out s) o v) as ->.
  { cbn [mend]. change (Z.of_nat 0) with 0. rewrite R1. cbn [option_bind mn_start mn_value paint_below Z.of_nat zseq Z.to_nat seq map fold_opt]. rewrite HPa. destruct (1 - 0 >=? size); reflexivity. }
  destruct (wr (ms_out s) o v) as [out1|] eqn:W3; [|discriminate]. cbn [option_map]. intros [= <-]. unfold open_line, EndProcess. cbn [open_points option_bind mend]. rewrite R1. cbn [option_bind mn_start mn_value]. rewrite HPa.
  destruct (wr_Some out1 o v) as (out2 & W4). { apply wr_Some_range in W3 as HR. rewrite (wr_length _ _ _ _ W3). exact HR. } rewrite W4. cbn [option_map ms_out]. eexists. split; [reflexivity|]. cbn [ms_out]. split; [apply (wr_length _ _ _ _ W4)|].
  intros q. rewrite (rd_wr _ _ _ _ _ W4), (rd_wr _ _ _ _ _ W3). destruct (o =? q); reflexivity.
Qed.

Lemma open_loop_ok gen step (L : Z -> list Z) T : 0 <= T -> forall fuel b s, T < Z.of_nat fuel ->
  (forall i, 0 <= i < T -> exists nx, gen (b + step * i) = Some (L i, nx) /\ 0 < nx) -> gen (b + step * T) = Some ([], 0) ->
  open_loop fuel gen alias size px b step s = option_bind (fold_opt (fun s i => open_line alias size px (L i) s) (zseq T) s) (fun s => option_map Some (open_line alias size px [] s)).
Proof using.
  clear Hs V N vmin. intros HT. revert L. pattern T. apply natlike_ind; [| |exact HT]; clear T HT.
  - intros L fuel b s Hf _ HE. destruct fuel as [|fuel]; [lia|]. cbn [open_loop]. rewrite Z.mul_0_r, Z.add_0_r in HE. rewrite HE. cbn [zseq Z.to_nat seq map fold_opt option_bind]. destruct (open_line alias size px [] s); reflexivity.
  - intros T HT IH L fuel b s Hf HG HE. destruct fuel as [|fuel]; [lia|]. cbn [open_loop]. destruct (HG 0 ltac:(lia)) as (nx & G0 & N0). rewrite Z.mul_0_r, Z.add_0_r in G0. rewrite G0.
    rewrite zseq_cons by lia. replace (Z.succ T - 1) with T by lia. cbn [fold_opt]. destruct (open_line alias size px (L 0) s) as [s'|]; [|reflexivity]. cbn [option_bind]. rewrite Z.gtb_ltb. replace (0 <? nx) with true by (symmetry; apply Z.ltb_lt; lia).
    rewrite (IH (fun i => L (1 + i)) fuel (b + step) s' ltac:(lia)).
    + unfold zrange. rewrite fold_opt_map. reflexivity.
    + intros i Hi. replace (b + step + step * i) with (b + step * (1 + i)) by lia. apply HG. lia.
    + replace (b + step + step * T) with (b + step * Z.succ T) by lia. exact HE.
Qed.
End Lines.

Lemma run_transfer (on : Z -> Z -> Prop) (U : Z -> Z -> Z) (f : Z -> Z) n lo size a y v :
  (forall a' y', on a' y' -> 0 <= a' - lo < n /\ f (a' - lo) = U a' y') -> (forall i, 0 <= i < n -> exists y', on (lo + i) y') -> on a y -> 1 <= size -> 1 <= n ->
  length_opened f n (Z.min size n) (a - lo) v ->
  greatest (fun u => exists lo' hi, lo' <= a < hi /\ (size <= hi - lo' \/ forall a' y', on a' y' -> lo' <= a' < hi) /\ forall a', lo' <= a' < hi -> exists y', on a' y' /\ u <= U a' y') v.
Proof.
  intros H1 H2 Ha Hs Hn. assert (exists q, Z.min size n = q /\ q <= size /\ q <= n /\ 1 <= q /\ (size <= n -> q = size) /\ (n < size -> q = n)) as (q & -> & Q1 & Q2 & Q3 & Q4 & Q5) by (exists (Z.min size n); lia). intros (G1 & G2). split.
  - destruct G1 as (a0 & A1 & A2 & A3). exists (lo + a0), (lo + a0 + q). split; [lia|]. split.
    + destruct (Z.le_gt_cases size n) as [C|C]; [left; lia|right]. intros a' y' B. destruct (H1 a' y' B) as (X & _). lia.
    + intros a' Ha'. destruct (H2 (a' - lo) ltac:(lia)) as (y' & X). replace (lo + (a' - lo)) with a' in * by lia. exists y'. split; [exact X|]. destruct (H1 a' y' X) as (_ & <-). apply A3. lia.
  - intros u (lo' & hi & B1 & B2 & B3). apply G2.
    assert (lo <= lo' /\ hi <= lo + n) as (R1 & R2). { destruct (B3 lo' ltac:(lia)) as (y1 & C1 & _). destruct (B3 (hi - 1) ltac:(lia)) as (y2 & D1 & _). destruct (H1 _ _ C1) as (X & _). destruct (H1 _ _ D1) as (Y & _). lia. }
    assert (q <= hi - lo') as R3. { destruct B2 as [B2|B2]; [lia|]. destruct (H2 0 ltac:(lia)) as (y1 & X1). destruct (H2 (n - 1) ltac:(lia)) as (y2 & Y1). pose proof (B2 _ _ X1). pose proof (B2 _ _ Y1). lia. }
    exists (Z.max lo' (a - q + 1) - lo). split; [lia|]. split; [lia|]. intros i Hi'. destruct (B3 (lo + i) ltac:(lia)) as (y1 & C1 & C4). destruct (H1 _ _ C1) as (X & Y). replace (lo + i - lo) with i in * by lia. rewrite Y. exact C4.
Qed.

Section System.
Variables (M m s : Z) (c : Z -> Z) (off : Z -> Z -> Z) (len : Z).
Hypothesis (HM : 1 <= M) (Hm : 1 <= m).
Hypothesis (Hinj : forall a b a' b', 0 <= a < M -> 0 <= b < m -> 0 <= a' < M -> 0 <= b' < m -> off a b = off a' b' -> a = a' /\ b = b').
Hypothesis (Hrange : forall a b, 0 <= a < M -> 0 <= b < m -> 0 <= off a b < len).
Variables (size : Z) (alias : bool) (px : list Z) (V : Z -> Z) (N vmin : Z).
Hypothesis (Hs : 1 <= size) (HMN : M <= N).

Definition sys_run (a y v : Z) : Prop :=
  exists lo hi, lo <= a < hi /\ (size <= hi - lo \/ forall a' y', 0 <= a' < M -> 0 <= y' < m -> y' - s * c a' = y - s * c a -> lo <= a' < hi) /\
    forall a', lo <= a' < hi -> exists y', 0 <= a' < M /\ 0 <= y' < m /\ y' - s * c a' = y - s * c a /\ v <= V (off a' y').

Lemma open_system_ok (L : Z -> list Z) (B : Z -> Z) (js : list Z) (st : mstate) :
  NoDup js -> Z.of_nat (length (ms_out st)) = len -> (forall j, In j js -> line_is M m s c off (B j) (L j) /\ L j <> []) -> (forall i j, In i js -> In j js -> B i = B j -> i = j) ->
  state_ok N st -> (forall o, 0 <= o < len -> rd (if alias then ms_out st else px) o = Some (V o)) -> (forall o, 0 <= o < len -> vmin <= V o <= vmin + 255) ->
  exists st', fold_opt (fun s j => open_line alias size px (L j) s) js st = Some st' /\ length (ms_out st') = length (ms_out st) /\
    forall j a y, In j js -> 0 <= a < M -> 0 <= y < m -> B j = y - s * c a -> exists v, rd (ms_out st') (off a y) = Some v /\ greatest (sys_run a y) v.
Proof using HM Hm Hinj Hrange Hs HMN.
  intros ND HO HL HB HS HV HT.
  destruct (open_lines_ok size alias px V N vmin Hs L len js st ND HO) as (st' & E & _ & L' & _ & HR); try assumption.
  - intros j Hj. destruct (HL j Hj) as (HI & HN). pose proof (line_pixels M m s c off (B j) (L j) HI) as HP.
    assert (forall o, In o (L j) -> 0 <= o < len) as HIn. { intros o Ho. apply HP in Ho. destruct Ho as (a & Ha & Hb & ->). apply Hrange; assumption. }
    split; [apply (line_NoDup M m s c off Hinj (B j)); exact HI|]. split; [|split; [exact HIn|intros o Ho; apply HT, HIn, Ho]]. pose proof (line_length M m s c off HM (B j) (L j) HI). destruct (L j); [congruence|]. cbn [length] in *. lia.
  - intros i j o Hi Hj Oi Oj. apply HB; [exact Hi|exact Hj|]. apply (line_pixels M m s c off (B i) (L i) (proj1 (HL i Hi))) in Oi. apply (line_pixels M m s c off (B j) (L j) (proj1 (HL j Hj))) in Oj. destruct Oi as (a & A1 & A2 & ->). destruct Oj as (a' & A3 & A4 & EO). apply Hinj in EO; try assumption. destruct EO as (<- & EO). lia.
  - intros j o Hj Ho. apply HV. apply (line_pixels M m s c off (B j) (L j) (proj1 (HL j Hj))) in Ho. destruct Ho as (a & Ha & Hb & ->). apply Hrange; assumption.
  - exists st'. split; [exact E|]. split; [exact L'|]. intros j a y Hj Ha Hy EB. destruct (HL j Hj) as (HI & _). destruct (line_index M m s c off (B j) (L j) a HI Ha ltac:(lia)) as (lo & Hn & H1 & H2). set (p := L j) in *. set (n := Z.of_nat (length p)) in *.
    assert (forall a' y', 0 <= a' < M -> 0 <= y' < m -> y' - s * c a' = y - s * c a -> 0 <= a' - lo < n /\ rd p (a' - lo) = Some (off a' y')) as H1'. { intros a' y' A1 A2 A3. destruct (H1 a' A1 ltac:(lia)) as (X & Y). split; [exact X|]. rewrite Y. f_equal. f_equal. lia. }
    destruct (H1' a y Ha Hy eq_refl) as (Hi & Ri). destruct (HR j Hj _ _ Ri) as (v & Rv & HG). exists v. split; [exact Rv|]. fold p n in HG.
    destruct (run_transfer (fun a' y' => 0 <= a' < M /\ 0 <= y' < m /\ y' - s * c a' = y - s * c a) (fun a' y' => V (off a' y')) (fun i => V (znth 0 p i)) n lo size a y v) as (G1 & G2).
    + intros a' y' (A1 & A2 & A3). destruct (H1' a' y' A1 A2 A3) as (X & Y). split; [exact X|]. rewrite (znth_rd 0 _ _ _ Y). reflexivity.
    + intros i Hi'. destruct (H2 i Hi') as (X1 & X2 & _). eexists. split; [exact X1|]. split; [exact X2|]. rewrite EB. lia.
    + auto.
    + exact Hs.
    + apply Z.ge_le. exact Hn.
    + exact HG.
    + split.
      * destruct G1 as (lo' & hi & A1 & A2 & A3). exists lo', hi. split; [exact A1|]. split; [destruct A2 as [A2|A2]; [left; exact A2|right; intros a' y' B1 B2 B3; apply (A2 a' y'); auto]|]. intros a' Ha'. destruct (A3 a' Ha') as (y' & (B1 & B2 & B3) & B4). exists y'. auto.
      * intros u (lo' & hi & A1 & A2 & A3). apply G2. exists lo', hi. split; [exact A1|]. split; [destruct A2 as [A2|A2]; [left; exact A2|right; intros a' y' (B1 & B2 & B3); eapply A2; eassumption]|]. intros a' Ha'. destruct (A3 a' Ha') as (y' & B1 & B2 & B3 & B4). exists y'. auto.
Qed.
End System.

Section Open.
Variables (fuel : nat) (mem : Z -> Z) (memn : Z -> mnode) (alias : bool) (t : ity) (im : img) (dx dy r : Z) (out : img).
Hypothesis HC : opening_call fuel alias t im dx dy r out.
Notation w := (dw (sz im)).
Notation h := (dh (sz im)).
Notation V := (znth 0 (pixs im)).

Lemma ocall_parts : 1 <= w < 2 ^ 31 /\ 1 <= h < 2 ^ 31 /\ dd (sz im) = 1 /\ Z.of_nat (length (pixs im)) = w * h /\ Z.of_nat (length (pixs out)) = w * h /\ 0 <= r < 2 ^ 30 /\
  w + h + Z.abs dx + Z.abs dy + 3 < Z.of_nat fuel.
Proof using HC mem memn.
  destruct HC as (((_ & L1) & A & B & D) & (_ & L2) & ES & _ & R & _ & _ & _ & F). rewrite ES in L2. rewrite D in L1, L2. unfold fuel_ok in F. repeat split; try lia.
Qed.
Lemma osrc_ok o : 0 <= o < w * h -> rd (if alias then pixs out else pixs im) o = Some (V o).
Proof using HC mem memn.
  intros Ho. pose proof ocall_parts as (_ & _ & _ & L & _ & _ & _). assert ((if alias then pixs out else pixs im) = pixs im) as ->. { destruct HC as (_ & _ & _ & A & _). destruct alias; [rewrite A by reflexivity|]; reflexivity. }
  destruct (rd_in_range (pixs im) o ltac:(lia)) as (v & E). rewrite (znth_rd 0 _ _ _ E). exact E.
Qed.
Lemma otyped o : 0 <= o < w * h -> tmin t <= V o <= tmin t + 255.
Proof using HC mem memn.
  intros Ho. pose proof ocall_parts as (_ & _ & _ & L & _). destruct HC as (_ & _ & _ & _ & _ & _ & T8 & TI & _). destruct (rd_in_range (pixs im) o ltac:(lia)) as (v & E). rewrite (znth_rd 0 _ _ _ E).
  pose proof (proj1 (Forall_forall _ _) TI v (rd_In _ _ _ E)) as X. unfold inty in X. destruct T8 as [-> | ->]; cbn in X |- *; lia.
Qed.
Lemma opixel x y z v : pixel_is im x y z v <-> (0 <= x < w /\ 0 <= y < h /\ z = 0) /\ V (y * w + x) = v.
Proof using HC mem memn.
  pose proof ocall_parts as (P1 & P2 & P3 & L & _). unfold pixel_is, inside, voxel_offset. rewrite P3. split.
  - intros (I & R). assert (z = 0) as -> by lia. split; [lia|]. replace (x + w * (y + h * 0)) with (y * w + x) in R by lia. apply (znth_rd 0 _ _ _ R).
  - intros (I & R). destruct I as (I1 & I2 & ->). split; [lia|]. replace (x + w * (y + h * 0)) with (y * w + x) by lia. pose proof (row_range w h x y I1 I2). destruct (rd_in_range (pixs im) (y * w + x) ltac:(lia)) as (u & E). rewrite (znth_rd 0 _ _ _ E) in R. congruence.
Qed.

Lemma owrap_ok out' : length out' = length (pixs out) ->
  (forall x y, 0 <= x < w -> 0 <= y < h -> exists v, rd out' (y * w + x) = Some v /\ greatest (run_through dx dy (2 * r + 1) im x y) v) ->
  opened_along dx dy (2 * r + 1) im (Img (sz out) out').
Proof using HC mem memn.
  intros HL H. pose proof ocall_parts as (P1 & P2 & P3 & L & Lo & _). assert (sz out = sz im) as ES by (destruct HC as (_ & _ & E & _); exact E). split; [exact ES|]. split.
  - split; cbn [sz pixs]; [rewrite ES; destruct HC as (((W & _) & _) & _); exact W|]. rewrite ES, P3, HL. lia.
  - intros x y z v (I & R). cbn [sz pixs] in *. rewrite ES in I, R. unfold inside in I. rewrite P3 in I. assert (z = 0) as -> by lia. unfold voxel_offset in R. replace (x + w * (y + h * 0)) with (y * w + x) in R by lia.
    destruct (H x y ltac:(lia) ltac:(lia)) as (v' & R' & HG). assert (v' = v) as -> by congruence. exact HG.
Qed.

Definition init_state : mstate := Ms 0 (map mem (zseq (Z.max w h + 3))) (map memn (zseq 256)) 0 (pixs out).
Lemma init_ok : state_ok (Z.max w h) init_state.
Proof using HC. unfold state_ok, init_state. cbn [ms_idx ms_stack]. rewrite !map_length, !zseq_length. pose proof ocall_parts. rewrite !Z2Nat.id by lia. lia. Qed.

Lemma orows_ok (n d s : Z) (L : Z -> list Z) (B : Z -> Z) js :
  n = Z.abs dy -> d = Z.abs dx -> Z.abs dy <= Z.abs dx -> s = Z.sgn dx * Z.sgn dy ->
  NoDup js -> (forall j, In j js -> line_is w h s (rise n d) (fun a b => b * w + a) (B j) (L j) /\ L j <> []) -> (forall i j, In i js -> In j js -> B i = B j -> i = j) ->
  (forall x y, 0 <= x < w -> 0 <= y < h -> exists j, In j js /\ B j = y - s * rise n d x) ->
  exists st, fold_opt (fun s j => open_line alias (2 * r + 1) (pixs im) (L j) s) js init_state = Some st /\ length (ms_out st) = length (pixs out) /\
    forall x y, 0 <= x < w -> 0 <= y < h -> exists v, rd (ms_out st) (y * w + x) = Some v /\ greatest (run_through dx dy (2 * r + 1) im x y) v.
Proof using HC.
  intros En Ed Hor Es ND HL HB Hcov. pose proof ocall_parts as (P1 & P2 & P3 & Li & Lo & Pr & _).
  destruct (open_system_ok w h s (rise n d) (fun a b => b * w + a) (w * h) ltac:(lia) ltac:(lia) (row_inj w h) (row_range w h) (2 * r + 1) alias (pixs im) V (Z.max w h) (tmin t) ltac:(lia) ltac:(lia)
    L B js init_state ND Lo HL HB init_ok osrc_ok otyped) as (st & E & L' & HR).
  exists st. split; [exact E|]. split; [exact L'|]. intros x y Hx Hy. destruct (Hcov x y Hx Hy) as (j & Hj & EB). destruct (HR j x y Hj Hx Hy EB) as (v & Ev & G1 & G2). exists v. split; [exact Ev|].
  assert (forall u, run_through dx dy (2 * r + 1) im x y u <-> sys_run w h s (rise n d) (fun a b => b * w + a) (2 * r + 1) V x y u) as HE.
  { intros u. unfold run_through, same_line, line_place. rewrite <- Es, <- En, <- Ed. replace (n <=? d) with true by (symmetry; apply Z.leb_le; lia). split.
    - intros (a & b & A1 & A2 & A3). exists a, b. split; [exact A1|]. split; [destruct A2 as [A2|A2]; [left; exact A2|right; intros a' y' B1 B2 B3; apply (A2 a' y'); lia]|]. intros a' Ha'. destruct (A3 a' Ha') as (x' & y' & u' & B1 & B2 & B3 & B4). subst a'. apply opixel in B3. destruct B3 as ((C1 & C2 & _) & <-). exists y'. repeat split; lia.
    - intros (a & b & A1 & A2 & A3). exists a, b. split; [exact A1|]. split; [destruct A2 as [A2|A2]; [left; exact A2|right; intros a' y' B1 B2 B3; apply (A2 a' y'); lia]|]. intros a' Ha'. destruct (A3 a' Ha') as (y' & B1 & B2 & B3 & B4). exists a', y', (V (y' * w + a')). split; [lia|]. split; [reflexivity|]. split; [apply opixel; split; [lia|reflexivity]|exact B4]. }
  split; [apply HE; exact G1|]. intros u Hu. apply G2, HE, Hu.
Qed.
Lemma ocolumns_ok (n d s : Z) (L : Z -> list Z) (B : Z -> Z) js :
  n = Z.abs dx -> d = Z.abs dy -> Z.abs dx < Z.abs dy -> s = Z.sgn dx * Z.sgn dy ->
  NoDup js -> (forall j, In j js -> line_is h w s (rise n d) (fun a b => a * w + b) (B j) (L j) /\ L j <> []) -> (forall i j, In i js -> In j js -> B i = B j -> i = j) ->
  (forall x y, 0 <= x < w -> 0 <= y < h -> exists j, In j js /\ B j = x - s * rise n d y) ->
  exists st, fold_opt (fun s j => open_line alias (2 * r + 1) (pixs im) (L j) s) js init_state = Some st /\ length (ms_out st) = length (pixs out) /\
    forall x y, 0 <= x < w -> 0 <= y < h -> exists v, rd (ms_out st) (y * w + x) = Some v /\ greatest (run_through dx dy (2 * r + 1) im x y) v.
Proof using HC.
  intros En Ed Hor Es ND HL HB Hcov. pose proof ocall_parts as (P1 & P2 & P3 & Li & Lo & Pr & _).
  destruct (open_system_ok h w s (rise n d) (fun a b => a * w + b) (w * h) ltac:(lia) ltac:(lia)) with (size := 2 * r + 1) (alias := alias) (px := pixs im) (V := V) (N := Z.max w h) (vmin := tmin t)
    (L := L) (B := B) (js := js) (st := init_state) as (st & E & L' & HR); try assumption; try lia.
  { intros a c a' c' Ha Hc Ha' Hc' EE. destruct (row_inj w h c a c' a' Hc Ha Hc' Ha' EE). auto. }
  { intros a c Ha Hc. apply row_range; assumption. }
  { apply init_ok. }
  { apply osrc_ok. }
  { apply otyped. }
  exists st. split; [exact E|]. split; [exact L'|]. intros x y Hx Hy. destruct (Hcov x y Hx Hy) as (j & Hj & EB). destruct (HR j y x Hj Hy Hx EB) as (v & Ev & G1 & G2). exists v. split; [exact Ev|].
  assert (forall u, run_through dx dy (2 * r + 1) im x y u <-> sys_run h w s (rise n d) (fun a b => a * w + b) (2 * r + 1) V y x u) as HE.
  { intros u. unfold run_through, same_line, line_place. rewrite <- Es, <- En, <- Ed. replace (d <=? n) with false by (symmetry; apply Z.leb_gt; lia). split.
    - intros (a & b & A1 & A2 & A3). exists a, b. split; [exact A1|]. split; [destruct A2 as [A2|A2]; [left; exact A2|right; intros a' y' B1 B2 B3; apply (A2 y' a'); lia]|]. intros a' Ha'. destruct (A3 a' Ha') as (x' & y' & u' & B1 & B2 & B3 & B4). subst a'. apply opixel in B3. destruct B3 as ((C1 & C2 & _) & <-). exists x'. repeat split; lia.
    - intros (a & b & A1 & A2 & A3). exists a, b. split; [exact A1|]. split; [destruct A2 as [A2|A2]; [left; exact A2|right; intros x' a' B1 B2 B3; apply (A2 a' x'); lia]|]. intros a' Ha'. destruct (A3 a' Ha') as (x' & B1 & B2 & B3 & B4). exists x', a', (V (a' * w + x')). split; [lia|]. split; [reflexivity|]. split; [apply opixel; split; [lia|reflexivity]|exact B4]. }
  split; [apply HE; exact G1|]. intros u Hu. apply G2, HE, Hu.
Qed.

Lemma imFastLineOpen_ok : exists D, imFastLineOpen fuel mem memn alias im dx dy r out = Some (Some (1, D)) /\ opened_along dx dy (2 * r + 1) im D.
Proof using HC.
  pose proof ocall_parts as (P1 & P2 & P3 & Li & Lo & Pr & Pf). pose proof HC as (_ & _ & ES & _ & _ & HG & _). unfold imFastLineOpen. rewrite same_size_true by auto. cbn [negb].
  cut (exists st, line_opening fuel alias (width im) (height im) dx dy r (pixs im) init_state = Some (Some st) /\ length (ms_out st) = length (pixs out) /\
    forall x y, 0 <= x < w -> 0 <= y < h -> exists v, rd (ms_out st) (y * w + x) = Some v /\ greatest (run_through dx dy (2 * r + 1) im x y) v).
  { intros (st & E & HL & HD). unfold init_state in E. unfold width, height in *. rewrite E. cbn [fuel_bind]. eexists. split; [reflexivity|]. apply owrap_ok; assumption. }
  unfold line_opening, width, height. replace (r * 2 + 1) with (2 * r + 1) by lia.
  destruct (Z.eqb_spec dx 0) as [Ex|Ex].
  { assert (dy <> 0) as Ey by (unfold open_dir in HG; lia).
    destruct (ocolumns_ok 0 (Z.abs dy) 0 (fun x => map (fun y => y * w + x) (zseq h)) (fun x => x) (zseq w)) as (st & -> & HD); try (rewrite Ex; cbn; lia); try lia.
    - apply zseq_NoDup.
    - intros j Hj. apply zseq_In in Hj. split; [apply (full_line h w (Z.abs dy) (fun a b => a * w + b) j); lia|]. intros C. apply (f_equal (@length _)) in C. rewrite map_length, zseq_length in C. cbn in C. lia.
    - intros x y Hx Hy. exists x. split; [apply zseq_In; exact Hx|lia].
    - exists st. split; [reflexivity|exact HD]. }
  destruct (Z.eqb_spec dy 0) as [Ey|Ey].
  { destruct (orows_ok 0 (Z.abs dx) 0 (fun y => map (fun x => y * w + x) (zseq w)) (fun y => y) (zseq h)) as (st & -> & HD); try (rewrite Ey; cbn; lia); try lia.
    - apply zseq_NoDup.
    - intros j Hj. apply zseq_In in Hj. split; [apply (full_line w h (Z.abs dx) (fun a b => b * w + a) j); lia|]. intros C. apply (f_equal (@length _)) in C. rewrite map_length, zseq_length in C. cbn in C. lia.
    - intros x y Hx Hy. exists y. split; [apply zseq_In; exact Hy|lia].
    - exists st. split; [reflexivity|exact HD]. }
  assert (dx = - dy) as En by (unfold open_dir in HG; lia). replace (Z.abs dx =? Z.abs dy) with true by (symmetry; apply Z.eqb_eq; lia). replace (dx =? - dy) with true by (symmetry; apply Z.eqb_eq; exact En).
  set (L := fun i => match ComputeLineNegDiag fuel w h 0 i with Some p => p | None => [] end).
  assert (forall i, 0 <= i <= w + h - 1 -> ComputeLineNegDiag fuel w h 0 i = Some (L i) /\ line_is w h (-1) (fun a => a) (fun a b => b * w + a) i (L i) /\ (L i = [] <-> i = w + h - 1)) as HL.
  { intros i Hi. destruct (NegDiag_ok w h ltac:(lia) ltac:(lia) fuel i Hi ltac:(lia)) as (p & E & HI & HE). unfold L. rewrite E. split; [reflexivity|]. split; assumption. }
  rewrite (open_loop_ok (2 * r + 1) alias (pixs im) (fun b => with_count (ComputeLineNegDiag fuel w h 0 b)) 1 L (w + h - 1) ltac:(lia) fuel 0 init_state ltac:(lia)).
  - destruct (orows_ok (Z.abs dy) (Z.abs dx) (-1) L (fun y => y) (zseq (w + h - 1))) as (st & E & LS & HD); try lia.
    + apply zseq_NoDup.
    + intros j Hj. apply zseq_In in Hj. destruct (HL j ltac:(lia)) as (_ & (lo & k & A1 & A2 & A3) & HE). split; [|intros C; apply HE in C; lia].
      assert (forall a, rise (Z.abs dy) (Z.abs dx) a = a) as HR by (intros a; replace (Z.abs dy) with (Z.abs dx) by lia; apply rise_diag; lia). exists lo, k. split; [exact A1|]. split; [rewrite A2; apply map_ext; intros a; rewrite HR; reflexivity|]. intros a. rewrite HR. apply A3.
    + intros x y Hx Hy. exists (y + x). split; [apply zseq_In; lia|]. replace (Z.abs dy) with (Z.abs dx) by lia. rewrite rise_diag by lia. lia.
    + rewrite E. cbn [option_bind].
      assert (exists o s0, open_line alias (2 * r + 1) (pixs im) [o] s0 = Some st) as (o & s0 & E0).
      { replace (w + h - 1) with (w + h - 2 + 1) in E by lia. rewrite <- zrange_0_zseq, zrange_snoc, fold_opt_app in E by lia. match type of E with option_bind ?X _ = _ => destruct X as [s0|]; [|discriminate] end. cbn [option_bind fold_opt] in E. rewrite Z.add_0_l in E.
        destruct (HL (w + h - 2) ltac:(lia)) as (_ & (lo & k & A1 & A2 & A3) & HE). assert (lo = w - 1 /\ k = 1) as (-> & ->).
        { pose proof (proj1 (A3 (w - 1)) ltac:(lia)). assert (~ lo <= w - 2 < lo + k) as N1 by (intros C; apply A3 in C; lia). assert (~ lo <= w < lo + k) as N2 by (intros C; apply A3 in C; lia). lia. }
        rewrite A2 in E. change (zrange (w - 1) 1) with [w - 1 + 0] in E. cbn [map] in E. eexists _, s0. destruct (open_line alias (2 * r + 1) (pixs im) _ s0) as [s1|] eqn:E1; [|discriminate]. injection E as <-. exact E1. }
      destruct (stale_ok (2 * r + 1) alias (pixs im) ltac:(lia) o s0 st E0) as (s2 & E2 & L2 & R2). rewrite E2. cbn [option_map]. exists s2. split; [reflexivity|]. split; [lia|]. intros x y Hx Hy. rewrite R2. apply HD; assumption.
  - intros i Hi. replace (0 + 1 * i) with i by lia. destruct (HL i ltac:(lia)) as (E & _ & HE). rewrite E. eexists. split; [reflexivity|]. destruct (L i) as [|o p] eqn:EL; [|cbn [length]; lia]. destruct HE as (HE & _). specialize (HE eq_refl). lia.
  - replace (0 + 1 * (w + h - 1)) with (w + h - 1) by lia. destruct (HL (w + h - 1) ltac:(lia)) as (E & _ & HE). rewrite E. destruct HE as (_ & HE). rewrite HE by reflexivity. reflexivity.
Qed.
End Open.

Lemma opened_typed t dx dy L im D : wf_img im -> typed_img t im -> dd (sz im) = 1 -> opened_along dx dy L im D -> typed_img t D.
Proof.
  intros W T H1 (S & WD & HD). apply typed_pix; [exact WD|]. intros x y z v Hv. destruct (HD x y z v Hv) as ((a & b & A1 & A2 & A3) & HM). destruct (A3 _ A1) as (x' & y' & u & _ & _ & P & Q). pose proof (typed_is t im x' y' 0 u T P) as X. unfold inty in *. split; [|lia].
  apply HM. exists a, b. split; [exact A1|]. split; [exact A2|]. intros i Hi. destruct (A3 i Hi) as (x2 & y2 & u2 & B1 & B2 & B3 & B4). exists x2, y2, u2. split; [exact B1|]. split; [exact B2|]. split; [exact B3|]. pose proof (typed_is t im x2 y2 0 u2 T B3) as Y. unfold inty in Y. lia.
Qed.
Lemma imFastLineClose_ok fuel mem memn t im dx dy r out : opening_call fuel false t im dx dy r out ->
  exists D, imFastLineClose fuel mem memn t im dx dy r out = Some (Some (1, D)) /\ closed_along dx dy (2 * r + 1) im D.
Proof.
  intros HC. pose proof HC as ((W & W1 & W2 & W3) & Wo & ES & HA & Hr & Hd & T8 & T & Hf). destruct (inv_negative t im W T) as (SN & WN & HN). set (N := pw1 (px_inv t) im) in *.
  assert (typed_img t N) as TN. { apply typed_pix; [exact WN|]. intros x y z v Hv. destruct (pixel_exists im x y z W) as (u & Hu); [rewrite <- SN; apply Hv|]. rewrite (pixel_is_fun N x y z _ _ Hv (HN _ _ _ _ Hu)). pose proof (typed_is t im x y z u T Hu). unfold inty in *. lia. }
  destruct (imFastLineOpen_ok fuel mem memn false t N dx dy r out) as (D & E & HD).
  { unfold opening_call, line_image, fuel_ok in *. rewrite SN. repeat (split; [first [assumption|split; assumption|congruence|tauto]|]). exact Hf. }
  unfold imFastLineClose. fold N. rewrite E. cbn [fuel_bind]. rewrite Z.eqb_refl. eexists. split; [reflexivity|].
  pose proof (opened_typed t dx dy (2 * r + 1) N D WN TN ltac:(rewrite SN; exact W3) HD) as TD. destruct HD as (SD & WD & HD). destruct (inv_negative t D WD TD) as (SE & WE & HE). split; [congruence|]. split; [exact WE|].
  intros x y z v Hv. destruct (pixel_exists D x y z WD) as (d & Hd'); [rewrite <- SE; apply Hv|]. rewrite (pixel_is_fun _ x y z _ _ Hv (HE _ _ _ _ Hd')). destruct (HD x y z d Hd') as ((a & b & A1 & A2 & A3) & HM). rewrite SN in A2. split.
  - exists a, b. split; [exact A1|]. split; [exact A2|]. intros i Hi. destruct (A3 i Hi) as (x' & y' & u & B1 & B2 & B3 & B4). destruct (pixel_exists im x' y' 0 W) as (u' & Hu); [rewrite <- SN; apply B3|]. exists x', y', u'. split; [exact B1|]. split; [exact B2|]. split; [exact Hu|]. rewrite (pixel_is_fun N x' y' 0 _ _ B3 (HN _ _ _ _ Hu)) in B4. lia.
  - intros u (a' & b' & B1 & B2 & B3). assert (tmin t + tmax t - u <= d); [|lia]. apply HM. exists a', b'. rewrite SN. split; [exact B1|]. split; [exact B2|]. intros i Hi. destruct (B3 i Hi) as (x' & y' & u' & C1 & C2 & C3 & C4). exists x', y', (tmin t + tmax t - u'). split; [exact C1|]. split; [exact C2|]. split; [apply HN; exact C3|lia].
Qed.

(** ** Openings by length are openings *)

Lemma same_place dx dy x y x' y' : same_line dx dy x y x' y' -> line_place dx dy x' y' = line_place dx dy x y -> x' = x /\ y' = y.
Proof. unfold same_line, line_place. cbv zeta. destruct (Z.abs dy <=? Z.abs dx); intros A B; subst; lia. Qed.
Lemma same_line_trans dx dy x y x1 y1 x2 y2 : same_line dx dy x y x1 y1 -> same_line dx dy x y x2 y2 -> same_line dx dy x1 y1 x2 y2.
Proof. unfold same_line. cbv zeta. destruct (Z.abs dy <=? Z.abs dx); congruence. Qed.
Lemma same_line_through dx dy x y x1 y1 x2 y2 : same_line dx dy x y x1 y1 -> same_line dx dy x1 y1 x2 y2 -> same_line dx dy x y x2 y2.
Proof. unfold same_line. cbv zeta. destruct (Z.abs dy <=? Z.abs dx); congruence. Qed.

Lemma runs_below dx dy L im O : dd (sz im) = 1 -> opened_along dx dy L im O -> le_img O im.
Proof.
  intros HD (S & W & H) x y z u v Hu Hv. destruct (H x y z u Hu) as ((a & b & A1 & _ & A3) & _). destruct (A3 _ A1) as (x' & y' & u' & B1 & B2 & B3 & B4). destruct (same_place _ _ _ _ _ _ B1 B2) as (-> & ->).
  assert (z = 0) as -> by (destruct Hv as (I & _); unfold inside in I; lia). rewrite (pixel_is_fun im x y 0 _ _ Hv B3). exact B4.
Qed.
Lemma runs_mono dx dy L im im' O O' : sz im' = sz im -> wf_img im' -> le_img im im' -> opened_along dx dy L im O -> opened_along dx dy L im' O' -> le_img O O'.
Proof.
  intros S W HL (SO & WO & H) (SO' & WO' & H') x y z u v Hu Hv. apply (proj2 (H' x y z v Hv)). destruct (H x y z u Hu) as ((a & b & A1 & A2 & A3) & _). exists a, b. rewrite S. split; [exact A1|]. split; [exact A2|]. intros i Hi. destruct (A3 i Hi) as (x' & y' & u' & B1 & B2 & B3 & B4).
  destruct (pixel_exists im' x' y' 0 W) as (v' & Hv'); [rewrite S; apply B3|]. exists x', y', v'. split; [exact B1|]. split; [exact B2|]. split; [exact Hv'|]. specialize (HL _ _ _ _ _ B3 Hv'). lia.
Qed.
Lemma runs_again dx dy L im O O' : dd (sz im) = 1 -> wf_img im -> opened_along dx dy L im O -> opened_along dx dy L O O' -> O' = O.
Proof.
  intros HD W HO HO'. pose proof HO as (SO & WO & H). pose proof HO' as (SO' & WO' & H'). pose proof (runs_below dx dy L O O' ltac:(rewrite SO; exact HD) HO') as HB. apply img_ext; [assumption..|]. intros x y z v Hv.
  destruct (pixel_exists O x y z WO) as (u & Hu); [rewrite <- SO'; apply Hv|]. assert (u = v) as <-; [|exact Hu]. apply Z.le_antisymm; [|apply (HB x y z); assumption].
  apply (proj2 (H' x y z v Hv)). destruct (H x y z u Hu) as ((a & b & A1 & A2 & A3) & _). exists a, b. rewrite SO. split; [exact A1|]. split; [exact A2|]. intros i Hi. destruct (A3 i Hi) as (x' & y' & u' & B1 & B2 & B3 & B4).
  destruct (pixel_exists O x' y' 0 WO) as (v' & Hv'); [rewrite SO; apply B3|]. exists x', y', v'. split; [exact B1|]. split; [exact B2|]. split; [exact Hv'|]. apply (proj2 (H x' y' 0 v' Hv')). exists a, b. rewrite B2. split; [exact Hi|]. split.
  - destruct A2 as [A2|A2]; [left; exact A2|right]. intros x2 y2 C1 C2 C3. apply A2; [exact C1|exact C2|eapply same_line_through; eassumption].
  - intros j Hj. destruct (A3 j Hj) as (x2 & y2 & u2 & C1 & C2 & C3 & C4). exists x2, y2, u2. split; [eapply same_line_trans; eassumption|]. auto.
Qed.
Lemma runs_fun dx dy L im O O' : opened_along dx dy L im O -> opened_along dx dy L im O' -> O = O'.
Proof.
  intros (S & W & H) (S' & W' & H'). apply img_ext; [assumption..|congruence|]. intros x y z v Hv. destruct (pixel_exists O' x y z W') as (v' & Hv'); [rewrite S', <- S; apply Hv|].
  destruct (H _ _ _ _ Hv) as (A & B). destruct (H' _ _ _ _ Hv') as (C & D). specialize (B v' C). specialize (D v A). assert (v = v') as -> by lia. exact Hv'.
Qed.
