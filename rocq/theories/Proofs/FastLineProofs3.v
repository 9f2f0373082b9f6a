(** The walks along the lines; dilations along a direction. *)
From Verif Require Import Spec.FastLineSpec Proofs.ImageFacts Proofs.PreludeFacts Proofs.LoopFacts Proofs.FastLineProofs1 Proofs.FastLineProofs2.

(** ** Digital lines *)

Lemma rise_bounds n d a : 0 < d -> n * a <= d * rise n d a < n * a + d.
Proof. intros Hd. unfold rise. pose proof (Z.div_mod (- (n * a)) d ltac:(lia)). pose proof (Z.mod_pos_bound (- (n * a)) d Hd). lia. Qed.
Lemma rise_unique n d a v : 0 < d -> n * a <= d * v < n * a + d -> rise n d a = v.
Proof. intros Hd Hv. pose proof (rise_bounds n d a Hd). assert (d * (rise n d a - v) < d * 1 /\ d * (v - rise n d a) < d * 1) as (P & Q) by lia. apply Z.mul_lt_mono_pos_l in P, Q; lia. Qed.
Lemma rise_0 n d : 0 < d -> rise n d 0 = 0.
Proof. intros Hd. apply rise_unique; lia. Qed.
Lemma rise_flat d a : 0 < d -> rise 0 d a = 0.
Proof. intros Hd. apply rise_unique; lia. Qed.
Lemma rise_diag d a : 0 < d -> rise d d a = a.
Proof. intros Hd. apply rise_unique; lia. Qed.
Lemma rise_mono n d a a' : 0 < d -> 0 <= n -> a <= a' -> rise n d a <= rise n d a'.
Proof.
  intros Hd Hn Ha. pose proof (rise_bounds n d a Hd). pose proof (rise_bounds n d a' Hd). pose proof (Z.mul_le_mono_nonneg_l a a' n Hn Ha).
  assert (d * rise n d a < d * (rise n d a' + 1)) as P by lia. apply Z.mul_lt_mono_pos_l in P; lia.
Qed.
Lemma rise_period n d a : 0 < d -> rise n d (a + d) = rise n d a + n.
Proof. intros Hd. apply rise_unique; [exact Hd|]. pose proof (rise_bounds n d a Hd). nia. Qed.

Definition err (n d a : Z) : Z := 2 * n * (a + 1) - 2 - 2 * d * rise n d a.
Lemma bres_step n d a b0 : 0 < d -> 0 <= n <= d -> bres n d (b0 + rise n d a) (err n d a) 1 = (b0 + rise n d (a + 1), err n d (a + 1)).
Proof.
  intros Hd Hn. unfold bres. rewrite Z.geb_leb. pose proof (rise_bounds n d a Hd) as HB. destruct (Z.leb_spec 0 (err n d a)) as [E|E]; unfold err in E.
  - assert (rise n d (a + 1) = rise n d a + 1) as R by (apply rise_unique; [exact Hd|lia]). unfold err. rewrite R. f_equal; lia.
  - assert (rise n d (a + 1) = rise n d a) as R by (apply rise_unique; [exact Hd|lia]). unfold err. rewrite R. f_equal; lia.
Qed.

Section Walk.
Variables (n d M m : Z) (off : Z -> Z -> Z).
Hypothesis (Hd : 0 < d) (Hn : 0 < n <= d) (HM : 1 <= M) (Hm : 1 <= m).
Notation c := (rise n d).

Lemma bres_P_ok : forall fuel a b0, Z.max 0 (M - a) < Z.of_nat fuel -> exists k, 0 <= k /\
  bres_P fuel n d M m off a (b0 + c a) (err n d a) = Some (map (fun a => off a (b0 + c a)) (zrange a k)) /\
  forall a', a <= a' -> (a' < M /\ b0 + c a' < m) <-> a' < a + k.
Proof using Hd Hn.
  clear HM Hm. induction fuel as [|fuel IH]; intros a b0 Hf.
  - lia.
  - cbn [bres_P]. destruct ((a <? M) && (b0 + c a <? m)) eqn:E.
    + apply andb_prop in E. destruct E as (E1 & E2). apply Z.ltb_lt in E1, E2. rewrite bres_step by lia. destruct (IH (a + 1) b0 ltac:(lia)) as (k & Hk & -> & HA). exists (k + 1). split; [lia|]. split.
      * rewrite (zrange_cons a (k + 1)) by lia. cbn [option_map map]. replace (k + 1 - 1) with k by lia. reflexivity.
      * intros a' Ha'. destruct (Z.eq_dec a' a) as [->|Hne]; [lia|]. rewrite (HA a' ltac:(lia)). lia.
    + exists 0. split; [lia|]. split; [rewrite zrange_nil by lia; reflexivity|]. intros a' Ha'. split; [|lia]. intros (P & Q). pose proof (rise_mono n d a a' Hd ltac:(lia) Ha').
      apply andb_false_elim in E. destruct E as [E|E]; apply Z.ltb_ge in E; lia.
Qed.

Lemma bres_skip_ok L b0 : 0 <= b0 + c L -> forall fuel a, 0 <= a <= L -> L - a < Z.of_nat fuel -> exists a1, a <= a1 <= L /\
  bres_skip fuel n d a (b0 + c a) (err n d a) = Some (a1, b0 + c a1, err n d a1) /\ 0 <= b0 + c a1 /\ forall a', a <= a' < a1 -> b0 + c a' < 0.
Proof using Hd Hn.
  clear HM Hm M m off. intros HL. induction fuel as [|fuel IH]; intros a Ha Hf; [lia|]. cbn [bres_skip]. replace (a <? 0) with false by (symmetry; apply Z.ltb_ge; lia). cbn [orb]. destruct (Z.ltb_spec (b0 + c a) 0) as [E|E].
  - rewrite bres_step by lia. assert (a <> L) by (intros ->; lia). destruct (IH (a + 1) ltac:(lia) ltac:(lia)) as (a1 & P1 & -> & P2 & P3). exists a1. split; [lia|]. split; [reflexivity|]. split; [exact P2|].
    intros a' Ha'. destruct (Z.eq_dec a' a) as [->|Hne]; [exact E|]. apply P3. lia.
  - exists a. split; [lia|]. split; [reflexivity|]. split; [exact E|]. intros; lia.
Qed.

Lemma P_ok fuel b : - c (M - 1) - 1 <= b < m -> M + d < Z.of_nat fuel ->
  exists p, ComputeBresenhamLineP fuel n d M m off 0 b = Some p /\ line_is M m 1 c off b p.
Proof using Hd Hn HM Hm.
  intros Hb Hf. unfold ComputeBresenhamLineP. pose proof (rise_period n d (M - 1) Hd) as PR.
  destruct (bres_skip_ok (M - 1 + d) b ltac:(lia) fuel 0 ltac:(lia) ltac:(lia)) as (a1 & P1 & E & P2 & P3). rewrite (rise_0 n d Hd), Z.add_0_r in E. unfold err in E at 1. rewrite (rise_0 n d Hd) in E.
  replace (2 * n * (0 + 1) - 2 - 2 * d * 0) with (2 * n - 2) in E by lia. rewrite E. cbn [option_bind].
  destruct (bres_P_ok fuel a1 b ltac:(lia)) as (k & Hk & -> & HA). eexists. split; [reflexivity|].
  exists a1, k. split; [exact Hk|]. split.
  - apply map_ext. intros a. f_equal. lia.
  - intros a. split.
    + intros (A1 & A2). destruct (Z.lt_ge_cases a a1) as [C|C]; [specialize (P3 a ltac:(lia)); lia|]. split; [exact C|]. apply HA; [exact C|]. split; lia.
    + intros (A1 & A2). pose proof (proj2 (HA a A1) A2) as (B1 & B2). pose proof (rise_mono n d a1 a Hd ltac:(lia) A1). split; lia.
Qed.
Lemma P_nonempty b p : - c (M - 1) <= b < m -> line_is M m 1 c off b p -> p <> [].
Proof using Hd Hn HM Hm.
  intros Hb (lo & k & Hk & -> & HA) E. assert (k = 0) as -> by (apply (f_equal (@length _)) in E; rewrite map_length, zrange_length in E; cbn in E; lia).
  assert (exists a, 0 <= a < M /\ 0 <= b + c a < m) as (a & A1 & A2).
  { destruct (Z.lt_ge_cases b 0) as [C|C]; [|exists 0; rewrite (rise_0 n d Hd); lia].
    destruct (bres_skip_ok (M - 1) b ltac:(lia) (Z.to_nat (M + 1)) 0 ltac:(lia) ltac:(lia)) as (a1 & P1 & _ & P2 & P3). exists a1. split; [lia|]. split; [exact P2|].
    assert (a1 <> 0) by (intros ->; rewrite (rise_0 n d Hd) in P2; lia). specialize (P3 (a1 - 1) ltac:(lia)). pose proof (rise_bounds n d (a1 - 1) Hd). pose proof (rise_bounds n d a1 Hd).
    assert (d * c a1 < d * (c (a1 - 1) + 2)) as Q by lia. apply Z.mul_lt_mono_pos_l in Q; lia. }
  pose proof (proj1 (HA a)). lia.
Qed.
Lemma P_empty b p : b < - c (M - 1) -> line_is M m 1 c off b p -> p = [].
Proof using Hd Hn.
  clear HM Hm. intros Hb (lo & k & Hk & -> & HA). destruct (Z.eq_dec k 0) as [->|Hk0]; [rewrite zrange_nil by lia; reflexivity|]. destruct (proj2 (HA lo) ltac:(lia)) as (A1 & A2). pose proof (rise_mono n d lo (M - 1) Hd ltac:(lia) ltac:(lia)). lia.
Qed.
End Walk.

Section NegDiag.
Variables (w h : Z).
Hypothesis (Hw : 1 <= w) (Hh : 1 <= h).

Lemma negdiag_loop_ok : forall fuel x y, 0 <= x < w -> 0 <= y < h -> w - x < Z.of_nat fuel -> exists k, 1 <= k /\
  option_map (cons (y * w + x)) (negdiag_loop fuel w h x y) = Some (map (fun a => (y + x - a) * w + a) (zrange x k)) /\ forall a, x <= a -> (a < w /\ 0 <= y + x - a) <-> a < x + k.
Proof using.
  clear Hw Hh. induction fuel as [|fuel IH]; intros x y Hx Hy Hf; [lia|]. cbn [negdiag_loop]. rewrite Z.gtb_ltb. destruct ((x <? w - 1) && (0 <? y)) eqn:E.
  - apply andb_prop in E. destruct E as (E1 & E2). apply Z.ltb_lt in E1, E2. destruct (IH (x + 1) (y - 1) ltac:(lia) ltac:(lia) ltac:(lia)) as (k & Hk & -> & HA). exists (k + 1). split; [lia|]. split.
    + cbn [option_map]. rewrite (zrange_cons x (k + 1)) by lia. cbn [map]. replace (k + 1 - 1) with k by lia. replace (y + x - x) with y by lia. do 2 f_equal. apply map_ext. intros a. f_equal. f_equal. lia.
    + intros a Ha. destruct (Z.eq_dec a x) as [->|Hne]; [lia|]. specialize (HA a ltac:(lia)). replace (y - 1 + (x + 1) - a) with (y + x - a) in HA by lia. rewrite HA. lia.
  - exists 1. split; [lia|]. split.
    + rewrite (zrange_cons x 1) by lia. rewrite zrange_nil by lia. cbn [option_map map]. replace (y + x - x) with y by lia. reflexivity.
    + intros a Ha. apply andb_false_elim in E. destruct E as [E|E]; apply Z.ltb_ge in E; lia.
Qed.

Lemma NegDiag_ok fuel b : 0 <= b <= w + h - 1 -> w < Z.of_nat fuel ->
  exists p, ComputeLineNegDiag fuel w h 0 b = Some p /\ line_is w h (-1) (fun a => a) (fun a b => b * w + a) b p /\ (p = [] <-> b = w + h - 1).
Proof using Hw Hh.
  intros Hb Hf. unfold ComputeLineNegDiag. rewrite Z.geb_leb. assert (exists x y, (if h <=? b then (0 + b - h + 1, h - 1) else (0, b)) = (x, y) /\ x + y = b /\ 0 <= x /\ 0 <= y < h /\ (x = 0 \/ y = h - 1)) as (x & y & -> & Exy & Px & Py & PC).
  { destruct (Z.leb_spec h b); do 2 eexists; (split; [reflexivity|]); lia. }
  rewrite Z.geb_leb. destruct (Z.leb_spec w x) as [C|C].
  - exists []. split; [reflexivity|]. split; [|split; [intros _; lia|reflexivity]]. exists 0, 0. split; [lia|]. split; [reflexivity|]. intros a. lia.
  - destruct (negdiag_loop_ok fuel x y ltac:(lia) Py ltac:(lia)) as (k & Hk & -> & HA). eexists. split; [reflexivity|]. split.
    + exists x, k. split; [lia|]. split; [apply map_ext; intros a; f_equal; f_equal; lia|]. intros a. split.
      * intros (A1 & A2). assert (x <= a) by lia. split; [assumption|]. apply HA; lia.
      * intros (A1 & A2). apply HA in A2; lia.
    + split; [intros E; apply (f_equal (@length _)) in E; rewrite map_length, zrange_length in E; cbn in E; lia|intros; lia].
Qed.
End NegDiag.

(** ** The loop over the lines *)

Lemma line_loop_ok {S} gen (body : list Z -> S -> option S) step (L : Z -> list Z) T : 0 <= T -> forall fuel b st, T < Z.of_nat fuel ->
  (forall i, 0 <= i < T -> gen (b + step * i) = Some (L i) /\ L i <> []) -> gen (b + step * T) = Some [] ->
  line_loop fuel gen body b step st = option_map Some (fold_opt (fun s i => body (L i) s) (zseq T) st).
Proof.
  intros HT. revert L. pattern T. apply natlike_ind; [| |exact HT]; clear T HT.
  - intros L fuel b st Hf _ HE. destruct fuel as [|fuel]; [lia|]. cbn [line_loop]. rewrite Z.mul_0_r, Z.add_0_r in HE. rewrite HE. reflexivity.
  - intros T HT IH L fuel b st Hf HG HE. destruct fuel as [|fuel]; [lia|]. cbn [line_loop]. destruct (HG 0 ltac:(lia)) as (G0 & N0). rewrite Z.mul_0_r, Z.add_0_r in G0. rewrite G0.
    rewrite zseq_cons by lia. replace (Z.succ T - 1) with T by lia. cbn [fold_opt]. destruct (L 0) as [|o p] eqn:E0; [congruence|]. cbn [option_bind]. destruct (body (o :: p) st) as [st'|]; [|reflexivity]. cbn [option_bind].
    rewrite (IH (fun i => L (1 + i)) fuel (b + step) st' ltac:(lia)).
    + unfold zrange. rewrite fold_opt_map. reflexivity.
    + intros i Hi. replace (b + step + step * i) with (b + step * (1 + i)) by lia. apply HG. lia.
    + replace (b + step + step * T) with (b + step * Z.succ T) by lia. exact HE.
Qed.
