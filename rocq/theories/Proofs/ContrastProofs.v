(** Linear stretching of the grey levels, range of the histogram. *)
From Coq Require Import Lqa.
From Verif Require Export Spec.ContrastSpec Proofs.MeasureProofs2.
From Verif Require Import Proofs.LoopFacts Proofs.PreludeFacts Proofs.IntsFacts.
Local Open Scope Z_scope.

(** ** Rounding *)
Lemma qround_pos q : (0 <= q)%Q -> (q - (1 # 2) < inject_Z (qround q) <= q + (1 # 2))%Q.
Proof.
  intros H. unfold qround. rewrite (proj2 (Qle_bool_iff _ _) H). pose proof (Qfloor_le (q + (1 # 2))) as A. pose proof (Qlt_floor (q + (1 # 2))) as B. rewrite inject_Z_plus in B. change (inject_Z 1) with 1%Q in B. split; lra.
Qed.
Lemma qround_neg q : (q < 0)%Q -> (q - (1 # 2) <= inject_Z (qround q) < q + (1 # 2))%Q.
Proof.
  intros H. unfold qround. assert (Qle_bool 0 q = false) as ->. { apply not_true_is_false. intros E. apply Qle_bool_iff in E. lra. }
  pose proof (Qfloor_le (- q + (1 # 2))) as A. pose proof (Qlt_floor (- q + (1 # 2))) as B. rewrite inject_Z_plus in B. change (inject_Z 1) with 1%Q in B. rewrite inject_Z_opp. split; lra.
Qed.
Lemma inj_lt a b : a < b <-> (inject_Z a < inject_Z b)%Q. Proof. rewrite Zlt_Qlt. reflexivity. Qed.
Lemma inj_pos d : 0 < d -> (0 < inject_Z d)%Q. Proof. intros H. unfold Qlt. cbn. lia. Qed.
Lemma inj_le a b : a <= b <-> (inject_Z a <= inject_Z b)%Q. Proof. rewrite Zle_Qle. reflexivity. Qed.
Lemma qround_unit q n : (inject_Z n - (1 # 2) < q < inject_Z n + (1 # 2))%Q -> qround q = n.
Proof.
  intros (A & B). assert (K : (inject_Z (n - 1) < inject_Z (qround q) < inject_Z (n + 1))%Q).
  { rewrite inject_Z_plus. replace (n - 1) with (n + - 1) by lia. rewrite inject_Z_plus. change (inject_Z (- 1)) with (- 1 # 1)%Q. change (inject_Z 1) with 1%Q.
    destruct (Qlt_le_dec q 0) as [H|H]; [apply qround_neg in H|apply qround_pos in H]; split; lra. }
  destruct K as (K1 & K2). rewrite <- inj_lt in K1, K2. lia.
Qed.
Lemma qround_int n q : (q == inject_Z n)%Q -> qround q = n.
Proof. intros E. apply qround_unit. rewrite E. split; lra. Qed.
Lemma tmin_tmax t : tmin t < tmax t. Proof. destruct t; vm_compute; reflexivity. Qed.
Lemma wrap_in t v : tmin t <= v <= tmax t -> wrap t v = v. Proof. intros H. apply IntsFacts.wrap_id. exact H. Qed.

(** A quotient against integers. *)
Lemma quot_le e d n : 0 < d -> (inject_Z n <= inject_Z e / inject_Z d)%Q <-> n * d <= e.
Proof.
  intros H. assert (0 < inject_Z d)%Q by (apply inj_pos; exact H). rewrite inj_le, inject_Z_mult. split; intros K.
  - apply (Qmult_le_compat_r _ _ (inject_Z d)) in K; [|lra]. unfold Qdiv in K. rewrite <- Qmult_assoc, (Qmult_comm (/ inject_Z d)), Qmult_inv_r, Qmult_1_r in K by lra. exact K.
  - apply Qle_shift_div_l; assumption.
Qed.
Lemma quot_ge e d n : 0 < d -> (inject_Z e / inject_Z d <= inject_Z n)%Q <-> e <= n * d.
Proof.
  intros H. assert (0 < inject_Z d)%Q by (apply inj_pos; exact H). rewrite inj_le, inject_Z_mult. split; intros K.
  - apply (Qmult_le_compat_r _ _ (inject_Z d)) in K; [|lra]. unfold Qdiv in K. rewrite <- Qmult_assoc, (Qmult_comm (/ inject_Z d)), Qmult_inv_r, Qmult_1_r in K by lra. exact K.
  - apply Qle_shift_div_r; assumption.
Qed.

Lemma rounded_clip t e d : 0 < d -> let q := (inject_Z e / inject_Z d)%Q in
  let c := if negb (Qle_bool q (inject_Z (tmax t))) then inject_Z (tmax t) else if negb (Qle_bool (inject_Z (tmin t)) q) then inject_Z (tmin t) else q in
  rounded t e d (wrap t (qround c)) /\ tmin t <= qround c <= tmax t.
Proof.
  intros Hd q c. pose proof (tmin_tmax t) as Ht.
  assert (B : tmin t <= qround c <= tmax t /\ rounded t e d (qround c)); [|destruct B as (B & R); split; [rewrite wrap_in by exact B; exact R|exact B]].
  unfold c. clear c. destruct (Qle_bool q (inject_Z (tmax t))) eqn:E1; cbn [negb].
  2:{ assert (K : ~ e <= tmax t * d) by (rewrite <- quot_ge by exact Hd; rewrite <- Qle_bool_iff; fold q; congruence). rewrite (qround_int (tmax t)) by reflexivity. split; [lia|]. split; [reflexivity|]. split; [nia|intros; nia]. }
  apply Qle_bool_iff in E1. unfold q in E1. rewrite quot_ge in E1 by exact Hd. destruct (Qle_bool (inject_Z (tmin t)) q) eqn:E2; cbn [negb].
  2:{ assert (K : ~ tmin t * d <= e) by (rewrite <- quot_le by exact Hd; rewrite <- Qle_bool_iff; fold q; congruence). rewrite (qround_int (tmin t)) by reflexivity. split; [lia|]. split; [nia|]. split; [reflexivity|intros; nia]. }
  apply Qle_bool_iff in E2. unfold q in E2. rewrite quot_le in E2 by exact Hd. set (r := qround q).
  assert (Hq : (inject_Z d * q == inject_Z e)%Q) by (unfold q; apply Qmult_div_r; intros E; unfold Qeq in E; cbn in E; lia).
  assert (Hd' : (0 < inject_Z d)%Q) by (apply inj_pos; exact Hd).
  assert (R1 : 0 <= e -> - d < 2 * (r * d - e) <= d).
  { intros He. assert (0 <= q)%Q by (change 0%Q with (inject_Z 0); unfold q; apply quot_le; [exact Hd|lia]). pose proof (qround_pos q H) as (A & B). fold r in A, B.
    rewrite !inj_lt, !inj_le, inject_Z_opp. replace (r * d - e) with (r * d + - e) by lia. rewrite inject_Z_mult, inject_Z_plus, inject_Z_opp, inject_Z_mult. change (inject_Z 2) with 2%Q. split; nra. }
  assert (R2 : e < 0 -> - d <= 2 * (r * d - e) < d).
  { intros He. assert (q < 0)%Q. { apply Qnot_le_lt. intros K. change 0%Q with (inject_Z 0) in K. unfold q in K. rewrite quot_le in K by exact Hd. lia. } pose proof (qround_neg q H) as (A & B). fold r in A, B.
    rewrite !inj_lt, !inj_le, inject_Z_opp. replace (r * d - e) with (r * d + - e) by lia. rewrite inject_Z_mult, inject_Z_plus, inject_Z_opp, inject_Z_mult. change (inject_Z 2) with 2%Q. split; nra. }
  assert (Rb : tmin t <= r <= tmax t). { destruct (Z.le_gt_cases 0 e) as [He|He]; [specialize (R1 He)|specialize (R2 He)]; split; nia. }
  split; [exact Rb|]. split; [|split; [|auto]].
  - intros H. destruct (Z.le_gt_cases 0 e) as [He|He]; [specialize (R1 He)|specialize (R2 He)]; nia.
  - intros H. destruct (Z.le_gt_cases 0 e) as [He|He]; [specialize (R1 He)|specialize (R2 He)]; nia.
Qed.

(** ** Stretching *)
Lemma psub_pos t a b : inty t a -> inty t b -> a <= b -> promoted_sub t b a = b - a.
Proof. intros Ha Hb H. unfold promoted_sub. destruct t; try reflexivity. unfold inty, tmin, tmax in *. cbn in *. apply Z.mod_small. lia. Qed.

Lemma px_stretch_ok t2 a b a' b' v : a < b -> exists w, px_stretch t2 a a' (b' - a') (b - a) v = Some w /\ tmin t2 <= w <= tmax t2 /\ rounded t2 (a' * (b - a) + (v - a) * (b' - a')) (b - a) w.
Proof.
  intros H. unfold px_stretch. destruct (Z.eqb_spec (b - a) 0); [lia|]. set (d := b - a) in *. set (e := a' * d + (v - a) * (b' - a')).
  assert (Eq : (inject_Z a' + inject_Z (v - a) * (inject_Z (b' - a') / inject_Z d) == inject_Z e / inject_Z d)%Q).
  { assert (Hd : (0 < inject_Z d)%Q) by (apply inj_pos; lia). unfold e. rewrite inject_Z_plus, !inject_Z_mult. field. lra. }
  assert (K : forall p q, (p == q)%Q -> qround p = qround q).
  { intros p q E. unfold qround. rewrite E. destruct (Qle_bool 0 q); rewrite E; reflexivity. }
  destruct (rounded_clip t2 e d ltac:(unfold d; lia)) as (R & B). eexists. split; [reflexivity|].
  match type of R with rounded _ _ _ (wrap _ (qround ?c)) => match goal with |- tmin _ <= wrap _ (qround ?c') <= _ /\ _ => assert (Ec : qround c' = qround c) end end.
  { rewrite Eq at 1. rewrite Eq at 1. destruct (Qle_bool _ (inject_Z (tmax t2))); cbn [negb]; [|reflexivity]. destruct (Qle_bool (inject_Z (tmin t2)) _); cbn [negb]; [|reflexivity]. apply K. exact Eq. }
  rewrite Ec. split; [rewrite wrap_in by exact B; exact B|exact R].
Qed.

Lemma all_some_ok {A B} (f : A -> option B) l : (forall a, In a l -> f a <> None) -> exists r, all_some (map f l) = Some r /\ length r = length l /\ forall k a, rd l k = Some a -> rd r k = f a.
Proof.
  induction l as [|a l IH]; intros H; [exists []; split; [reflexivity|]; split; [reflexivity|]; intros k b Hr; rewrite rd_out in Hr by (cbn; lia); discriminate|].
  destruct IH as (r & E & L & R); [intros b Hb; apply H; right; exact Hb|]. destruct (f a) as [b|] eqn:Eb; [|elim (H a (or_introl eq_refl) Eb)]. exists (b :: r). cbn [map all_some]. rewrite Eb, E. split; [reflexivity|]. split; [cbn; lia|].
  intros k c Hr. pose proof (rd_Some_range _ _ _ Hr) as Rg. destruct (Z.eq_dec k 0) as [->|Nk]; [cbn in Hr; injection Hr as <-; rewrite Eb; reflexivity|]. unfold rd in *. destruct (Z.leb_spec 0 k); [|lia]. replace (Z.to_nat k) with (S (Z.to_nat (k - 1))) in * by lia. cbn [nth_error] in *.
  specialize (R (k - 1) c). unfold rd in R. replace (0 <=? k - 1) with true in R by lia. apply R. exact Hr.
Qed.

Theorem stretch_ok t1 t2 a b a' b' im out : wf_img im -> sz out = sz im -> inty t1 a -> inty t1 b -> inty t2 a' -> inty t2 b' -> a < b -> a' <= b' \/ t2 <> UINT32 ->
  exists R, stretchHist t1 t2 a b a' b' im out = Some (1, R) /\ typed_img t2 R /\ stretched t2 a b a' b' im R.
Proof.
  intros W S I1 I2 I3 I4 H H'. unfold stretchHist. rewrite S, !Z.eqb_refl. cbn [andb negb]. rewrite (psub_pos t1 a b I1 I2) by lia. replace (promoted_sub t2 b' a') with (b' - a') by (destruct H' as [H'|H']; [symmetry; apply psub_pos; assumption|destruct t2; try reflexivity; congruence]).
  destruct (all_some_ok (px_stretch t2 a a' (b' - a') (b - a)) (pixs im)) as (r & E & L & R); [intros v _; destruct (px_stretch_ok t2 a b a' b' v H) as (w & -> & _); discriminate|].
  rewrite E. cbn [option_bind]. exists (Img (sz im) r). split; [reflexivity|]. split; [|split; [reflexivity|split]].
  - apply Forall_forall. intros w Hw. cbn [pixs] in Hw. apply In_rd in Hw as (k & Rg & Rk). destruct (rd_in_range (pixs im) k) as (v & Rv); [lia|]. rewrite (R k v Rv) in Rk. destruct (px_stretch_ok t2 a b a' b' v H) as (w' & E' & B & _). rewrite E' in Rk. injection Rk as <-. exact B.
  - destruct W as (W1 & W2). split; [exact W1|]. cbn [pixs sz]. lia.
  - intros x y z v w (_ & Rv) (_ & Rw). cbn [pixs sz] in *. rewrite (R _ v Rv) in Rw. destruct (px_stretch_ok t2 a b a' b' v H) as (w' & E' & _ & Q). rewrite E' in Rw. injection Rw as <-. exact Q.
Qed.

(** What the specification gives. *)
Lemma rounded_end t a b a' b' w : a < b -> inty t a' -> rounded t (a' * (b - a) + (a - a) * (b' - a')) (b - a) w -> w = a'.
Proof. intros H I (A & B & C). unfold inty in I. destruct C as (C1 & C2); [split; nia|]. destruct (Z.le_gt_cases 0 (a' * (b - a) + (a - a) * (b' - a'))); [specialize (C1 ltac:(lia))|specialize (C2 ltac:(lia))]; nia. Qed.
Lemma rounded_end2 t a b a' b' w : a < b -> inty t b' -> rounded t (a' * (b - a) + (b - a) * (b' - a')) (b - a) w -> w = b'.
Proof. intros H I (A & B & C). unfold inty in I. replace (a' * (b - a) + (b - a) * (b' - a')) with (b' * (b - a)) in * by ring. destruct C as (C1 & C2); [split; nia|]. destruct (Z.le_gt_cases 0 (b' * (b - a))); [specialize (C1 ltac:(lia))|specialize (C2 ltac:(lia))]; nia. Qed.
Lemma rounded_mono t e e' d w w' : 0 < d -> e <= e' -> rounded t e d w -> rounded t e' d w' -> w <= w'.
Proof.
  intros Hd H (A & B & C) (A' & B' & C'). pose proof (tmin_tmax t) as Ht.
  assert (Bw : forall e w, rounded t e d w -> tmin t <= w <= tmax t).
  { clear - Hd Ht. intros e w (A & B & C). destruct (Z.le_gt_cases (tmax t * d) e); [rewrite A by lia; lia|]. destruct (Z.le_gt_cases e (tmin t * d)); [rewrite B by lia; lia|]. destruct C as (C1 & C2); [lia|]. destruct (Z.le_gt_cases 0 e); [specialize (C1 ltac:(lia))|specialize (C2 ltac:(lia))]; split; nia. }
  pose proof (Bw e w (conj A (conj B C))). pose proof (Bw e' w' (conj A' (conj B' C'))).
  destruct (Z.le_gt_cases (tmax t * d) e'); [rewrite A' by lia; lia|]. destruct (Z.le_gt_cases e (tmin t * d)); [rewrite B by lia; lia|].
  destruct C as (C1 & C2); [lia|]. destruct C' as (C1' & C2'); [lia|].
  destruct (Z.le_gt_cases w w') as [K|K]; [exact K|]. assert (w' * d + d <= w * d) by nia.
  destruct (Z.le_gt_cases 0 e) as [He|He], (Z.le_gt_cases 0 e') as [He'|He']; try lia.
Qed.
Lemma stretched_mono t2 a b a' b' im R x y z x' y' z' u v u' v' : a < b -> a' <= b' -> stretched t2 a b a' b' im R ->
  pixel_is im x y z u -> pixel_is im x' y' z' u' -> pixel_is R x y z v -> pixel_is R x' y' z' v' -> u <= u' -> v <= v'.
Proof. intros H H' (_ & _ & S) P P' Q Q' L. refine (rounded_mono t2 _ _ (b - a) v v' ltac:(lia) _ (S _ _ _ _ _ P Q) (S _ _ _ _ _ P' Q')). apply Z.add_le_mono_l, Z.mul_le_mono_nonneg_r; lia. Qed.

(** ** Range of the histogram *)
Lemma shift_zseq {B} (f : Z -> B) j n : map (fun k => f (j + k)) (zseq (Z.of_nat (S n))) = f j :: map (fun k => f (j + 1 + k)) (zseq (Z.of_nat n)).
Proof.
  unfold zseq. rewrite !Nat2Z.id. cbn [seq map]. rewrite Z.add_0_r. f_equal. rewrite <- seq_shift, !map_map. apply map_ext. intros k. f_equal. lia.
Qed.

Section Loop.
  Variables (t : ity) (h : list Z) (sat : Q) (f : Z -> Z).
  Let hv k := znth 0 h (f k).
  Let acc (k : Z) : Z := Zsum (map hv (zseq k)).
  Let vol (cum : bool) (k : Z) : Z := if cum then acc (k + 1) else hv k.

  Lemma acc_succ k : 0 <= k -> acc (k + 1) = acc k + hv k.
  Proof. intros H. unfold acc. rewrite zseq_succ, map_app by exact H. unfold Zsum. rewrite fold_right_app. cbn [map fold_right]. generalize (map hv (zseq k)). intros l. induction l as [|a l IH]; cbn; lia. Qed.

  Lemma range_loop_ok cum : forall (n : nat) j th, 0 <= j -> (forall k, j <= k < j + Z.of_nat n -> 0 <= f k < Z.of_nat (length h) /\ wrap t (f k) = f k) ->
    exists m, 0 <= m <= Z.of_nat n /\ range_loop t cum h sat (map (fun k => f (j + k)) (zseq (Z.of_nat n))) (if cum then acc j else 0) th = Some (if m =? 0 then th else f (j + m - 1)) /\
      (forall k, j <= k < j + m -> (inject_Z (vol cum k) <= sat)%Q) /\ (m < Z.of_nat n -> (sat < inject_Z (vol cum (j + m)))%Q).
  Proof.
    assert (G : forall (n : nat) j th c, 0 <= j -> (forall k, j <= k < j + Z.of_nat n -> 0 <= f k < Z.of_nat (length h) /\ wrap t (f k) = f k) -> (cum = true -> c = acc j) ->
      exists m, 0 <= m <= Z.of_nat n /\ range_loop t cum h sat (map (fun k => f (j + k)) (zseq (Z.of_nat n))) c th = Some (if m =? 0 then th else f (j + m - 1)) /\
        (forall k, j <= k < j + m -> (inject_Z (vol cum k) <= sat)%Q) /\ (m < Z.of_nat n -> (sat < inject_Z (vol cum (j + m)))%Q)).
    { induction n as [|n IH]; intros j th c Hj F Ec.
      - exists 0. split; [lia|]. split; [reflexivity|]. split; [intros; lia|intros; lia].
      - rewrite shift_zseq. cbn [range_loop]. destruct (F j ltac:(lia)) as (Fr & Fw). rewrite (rd_znth 0 h (f j) Fr). cbn [option_bind]. rewrite Fw. fold (hv j).
        assert (Ev : (if cum then c + hv j else hv j) = vol cum j). { unfold vol. destruct cum; [rewrite acc_succ, (Ec eq_refl) by lia; reflexivity|reflexivity]. } rewrite Ev.
        destruct (Qle_bool (inject_Z (vol cum j)) sat) eqn:E; cbn [negb].
        + destruct (IH (j + 1) (f j) (vol cum j)) as (m & Hm & E2 & A & B); [lia|intros k Hk; apply F; lia|intros ->; reflexivity|]. exists (m + 1). split; [lia|]. split; [|split].
          * rewrite E2. destruct (Z.eqb_spec m 0) as [->|N]; [replace (0 + 1 =? 0) with false by lia; f_equal; f_equal; lia|]. replace (m + 1 =? 0) with false by lia. f_equal. f_equal. lia.
          * intros k Hk. destruct (Z.eq_dec k j) as [->|N]; [apply Qle_bool_iff; exact E|]. apply A. lia.
          * intros Hn. replace (j + (m + 1)) with (j + 1 + m) by lia. apply B. lia.
        + exists 0. split; [lia|]. split; [reflexivity|]. split; [intros; lia|]. intros _. rewrite Z.add_0_r. apply Qnot_le_lt. intros K. apply Qle_bool_iff in K. congruence. }
    intros n j th Hj F. apply G; [exact Hj|exact F|]. intros ->. reflexivity.
  Qed.
End Loop.

(** The numbers of pixels. *)
Lemma filter_split {A} (p q r : A -> bool) l : (forall a, In a l -> r a = p a || q a) -> (forall a, In a l -> p a && q a = false) ->
  Z.of_nat (length (filter r l)) = Z.of_nat (length (filter p l)) + Z.of_nat (length (filter q l)).
Proof.
  induction l as [|a l IH]; intros H1 H2; [reflexivity|]. cbn [filter]. specialize (IH (fun b Hb => H1 b (or_intror Hb)) (fun b Hb => H2 b (or_intror Hb))). pose proof (H1 a (or_introl eq_refl)). pose proof (H2 a (or_introl eq_refl)).
  destruct (p a), (q a), (r a); cbn [length] in *; try discriminate; lia.
Qed.
Lemma count_filter l v : Z.of_nat (count_occ Z.eq_dec l v) = Z.of_nat (length (filter (fun u => u =? v) l)).
Proof. induction l as [|a l IH]; [reflexivity|]. cbn [count_occ filter]. destruct (Z.eq_dec a v) as [->|N]; [rewrite Z.eqb_refl|replace (a =? v) with false by lia]; cbn [length]; lia. Qed.
Lemma n_le_succ im v : n_le im (v + 1) = n_le im v + n_eq im (v + 1).
Proof. apply filter_split; intros a _; lia. Qed.
Lemma n_ge_pred im v : n_ge im (v - 1) = n_ge im v + n_eq im (v - 1).
Proof. apply filter_split; intros a _; lia. Qed.
Lemma filter_none {A} (p : A -> bool) l : (forall a, In a l -> p a = false) -> filter p l = [].
Proof. induction l as [|a l IH]; intros H; [reflexivity|]. cbn [filter]. rewrite (H a) by (left; reflexivity). apply IH. intros b Hb. apply H. right. exact Hb. Qed.
Lemma n_le_mono im v w : v <= w -> n_le im v <= n_le im w.
Proof. intros H. unfold n_le. rewrite (filter_split (fun u => u <=? v) (fun u => (v <? u) && (u <=? w)) (fun u => u <=? w)) by (intros a _; lia). lia. Qed.
Lemma n_ge_mono im v w : v <= w -> n_ge im w <= n_ge im v.
Proof. intros H. unfold n_ge. rewrite (filter_split (fun u => w <=? u) (fun u => (v <=? u) && (u <? w)) (fun u => v <=? u)) by (intros a _; lia). lia. Qed.
Lemma n_cover im v w : w <= v + 1 -> Z.of_nat (length (pixs im)) <= n_le im v + n_ge im w.
Proof.
  intros H. unfold n_le, n_ge. induction (pixs im) as [|a l IH]; [cbn; lia|]. cbn [filter]. destruct (a <=? v) eqn:E1, (w <=? a) eqn:E2; cbn [length]; lia.
Qed.

Section Range.
  Variables (t : ity) (im : img) (lo hi : Z).
  Hypothesis U : is_signed t = false.
  Hypothesis N32 : t <> UINT32.
  Hypothesis W : wf_img im.
  Hypothesis T : typed_img t im.
  Hypothesis S : spans im lo hi.

  Lemma lohi : 0 <= lo <= hi /\ hi <= tmax t /\ tmin t = 0 /\ tmax t < 2 ^ 64 /\ tcard t = tmax t + 1.
  Proof.
    destruct S as (A & B & C). unfold typed_img in T. rewrite Forall_forall in T. pose proof (T _ A) as I1. pose proof (T _ B) as I2. pose proof (C _ A) as I3. unfold inty in *. assert (tmin t = 0) by (destruct t; try discriminate U; reflexivity).
    assert (tmax t < 2 ^ 64) by (destruct t; reflexivity). assert (tcard t = tmax t + 1) by (destruct t; try discriminate U; try congruence; reflexivity). lia.
  Qed.
  Lemma range_is : rangeVal t false im = Some (lo, hi).
  Proof.
    destruct S as (A & B & C). destruct (rangeVal_ok t false im W T) as (l & g & E & I1 & I2 & I3); [intros K; cbn in K; rewrite K in A; exact A|]. rewrite E. cbn in I1, I2, I3. pose proof (I3 _ A). pose proof (I3 _ B). pose proof (C _ I1). pose proof (C _ I2). do 2 f_equal; lia.
  Qed.
  Lemma in_fold_max l : forall a, a <= fold_left Z.max l a /\ (forall v, In v l -> v <= fold_left Z.max l a) /\ (fold_left Z.max l a = a \/ In (fold_left Z.max l a) l).
  Proof.
    induction l as [|b l IH]; intros a; cbn [fold_left]; [split; [lia|split; [intros v []|auto]]|]. destruct (IH (Z.max a b)) as (A & B & C). split; [lia|]. split; [intros v [<-|Hv]; [lia|auto]|]. destruct C as [C|C]; [|right; right; exact C]. destruct (Z.max_spec a b) as [(_ & E)|(_ & E)]; rewrite E in *; auto. right. left. auto.
  Qed.

  Lemma range_general p cum : exists h mx L R m m', histogram_array t im = Some h /\ histogramRange t im p cum = Some (L, R) /\
    let sat := (inject_Z mx * p / inject_Z 100)%Q in
    (cum = true -> mx = Z.of_nat (length (pixs im))) /\ (cum = false -> (exists v, n_eq im v = mx) /\ forall v, n_eq im v <= mx) /\
    0 <= m <= hi - lo /\ L = (if m =? 0 then lo else lo + m - 1) /\ (forall k, 0 <= k < m -> (inject_Z (if cum then n_le im (lo + k) else n_eq im (lo + k)) <= sat)%Q) /\
    (m < hi - lo -> (sat < inject_Z (if cum then n_le im (lo + m) else n_eq im (lo + m)))%Q) /\
    0 <= m' <= hi - lo /\ R = (if m' =? 0 then hi else hi - (m' - 1)) /\ (forall k, 0 <= k < m' -> (inject_Z (if cum then n_ge im (hi - k) else n_eq im (hi - k)) <= sat)%Q) /\
    (m' < hi - lo -> (sat < inject_Z (if cum then n_ge im (hi - m') else n_eq im (hi - m')))%Q).
  Proof.
    pose proof lohi as (Hl & Hh & Hm & H64 & Hc). destruct (histogram_array_ok t im N32 W T) as (h & Eh & Lh & Ch & _). rewrite Hc in Lh.
    assert (Hv : forall v, 0 <= v <= tmax t -> rd h v = Some (n_eq im v)). { intros v Hv. rewrite <- (Z.sub_0_r v) at 1. rewrite <- Hm. rewrite Ch by (unfold inty; lia). f_equal. apply count_filter. }
    assert (Hz : forall v, 0 <= v <= tmax t -> znth 0 h v = n_eq im v) by (intros v Hv'; apply znth_rd, Hv; exact Hv').
    set (mx := if cum then pixelCount (sz im) else fold_left Z.max h 0). set (sat := (inject_Z mx * p / inject_Z 100)%Q).
    assert (Ht : forall v, 0 <= v <= tmax t -> wrap t v = v) by (intros v Hv'; apply wrap_in; lia).
    pose proof (range_loop_ok t h sat (fun k => lo + k) cum (Z.to_nat (hi - lo)) 0 lo ltac:(lia)) as KL. rewrite Z2Nat.id in KL by lia. destruct KL as (m & Hm1 & EL & AL & BL); [intros k Hk; split; [lia|apply Ht; lia]|].
    pose proof (range_loop_ok t h sat (fun k => hi - k) cum (Z.to_nat (hi - lo)) 0 hi ltac:(lia)) as KR. rewrite Z2Nat.id in KR by lia. destruct KR as (m' & Hm2 & ER & AR & BR); [intros k Hk; split; [lia|apply Ht; lia]|].
    destruct S as (SA & SB & SC).
    assert (VL : forall k, 0 <= k <= hi - lo -> Zsum (map (fun k => znth 0 h (lo + k)) (zseq k)) = n_le im (lo + k - 1)).
    { intros k Hk. replace k with (Z.of_nat (Z.to_nat k)) in * by lia. induction (Z.to_nat k) as [|n IH]; [cbn; unfold n_le; rewrite filter_none; [reflexivity|]; intros a Ha; pose proof (SC a Ha); lia|].
      rewrite Nat2Z.inj_succ, <- Z.add_1_r. rewrite (acc_succ h (fun k => lo + k)) by lia. rewrite IH by lia. rewrite Hz by lia. replace (lo + (Z.of_nat n + 1) - 1) with (lo + Z.of_nat n - 1 + 1) by lia. rewrite n_le_succ. do 2 f_equal. lia. }
    assert (VR : forall k, 0 <= k <= hi - lo -> Zsum (map (fun k => znth 0 h (hi - k)) (zseq k)) = n_ge im (hi - k + 1)).
    { intros k Hk. replace k with (Z.of_nat (Z.to_nat k)) in * by lia. induction (Z.to_nat k) as [|n IH]; [cbn; unfold n_ge; rewrite filter_none; [reflexivity|]; intros a Ha; pose proof (SC a Ha); lia|].
      rewrite Nat2Z.inj_succ, <- Z.add_1_r. rewrite (acc_succ h (fun k => hi - k)) by lia. rewrite IH by lia. rewrite Hz by lia. replace (hi - (Z.of_nat n + 1) + 1) with (hi - Z.of_nat n + 1 - 1) by lia. rewrite n_ge_pred. do 2 f_equal. lia. }
    exists h, mx. do 2 eexists. exists m, m'. split; [exact Eh|]. split.
    { unfold histogramRange. rewrite Eh. cbn [option_bind]. rewrite range_is. cbn [option_bind fst snd]. fold mx. fold sat. rewrite !Z.mod_small by lia. cbn [map] in EL, ER.
      assert (E0 : (if cum then Zsum (map (fun k => znth 0 h (lo + k)) (zseq 0)) else 0) = 0) by (destruct cum; reflexivity). rewrite E0 in EL. assert (E0' : (if cum then Zsum (map (fun k => znth 0 h (hi - k)) (zseq 0)) else 0) = 0) by (destruct cum; reflexivity). rewrite E0' in ER.
      change (fun k => lo + (0 + k)) with (fun k => lo + k) in EL. change (fun k => hi - (0 + k)) with (fun k => hi - k) in ER. rewrite EL. cbn [option_bind]. rewrite ER. cbn [option_bind]. reflexivity. }
    intros sat'. fold sat in sat'. subst sat'. split; [intros ->; unfold mx; apply wf_count; exact W|]. split.
    { intros ->. unfold mx. destruct (in_fold_max h 0) as (A & B & C). split.
      - destruct C as [C|C]; [exists (-1); rewrite C; unfold n_eq; rewrite filter_none; [reflexivity|]; intros a Ha; pose proof (SC a Ha); lia|]. apply In_rd in C as (k & Rk & Ek). exists k. rewrite Hv in Ek by lia. injection Ek as Ek. exact Ek.
      - intros v. destruct (Z.le_gt_cases 0 v) as [H0|H0]; [destruct (Z.le_gt_cases v (tmax t)) as [H1|H1]|]; [apply B, (rd_In _ v), Hv; lia| |]; unfold n_eq; rewrite filter_none; try (cbn; lia); intros a Ha; pose proof (SC a Ha); lia. }
    split; [lia|]. split; [destruct (m =? 0); [reflexivity|lia]|]. split; [|split; [|split; [lia|split; [destruct (m' =? 0); [reflexivity|lia]|split]]]].
    - intros k Hk. specialize (AL k ltac:(lia)). destruct cum; [rewrite VL in AL by lia; replace (lo + (k + 1) - 1) with (lo + k) in AL by lia|rewrite Hz in AL by lia]; exact AL.
    - intros Hk. specialize (BL ltac:(lia)). destruct cum; [rewrite VL in BL by lia; replace (lo + (0 + m + 1) - 1) with (lo + m) in BL by lia|rewrite Hz in BL by lia; replace (lo + (0 + m)) with (lo + m) in BL by lia]; exact BL.
    - intros k Hk. specialize (AR k ltac:(lia)). destruct cum; [rewrite VR in AR by lia; replace (hi - (k + 1) + 1) with (hi - k) in AR by lia|rewrite Hz in AR by lia]; exact AR.
    - intros Hk. specialize (BR ltac:(lia)). destruct cum; [rewrite VR in BR by lia; replace (hi - (0 + m' + 1) + 1) with (hi - m') in BR by lia|rewrite Hz in BR by lia; replace (hi - (0 + m')) with (hi - m') in BR by lia]; exact BR.
  Qed.
End Range.

Definition saturation_of (im : img) (p : Q) : Q := (inject_Z (Z.of_nat (length (pixs im))) * p / inject_Z 100)%Q.

Theorem range_cumulative t im lo hi p : is_signed t = false -> t <> UINT32 -> wf_img im -> typed_img t im -> spans im lo hi ->
  exists L R, histogramRange t im p true = Some (L, R) /\ lo <= L <= hi /\ lo <= R <= hi /\ (lo < hi -> L < hi /\ lo < R) /\
    (L = lo \/ (inject_Z (n_le im L) <= saturation_of im p)%Q) /\ (forall v, L < v < hi -> (saturation_of im p < inject_Z (n_le im v))%Q) /\
    (R = hi \/ (inject_Z (n_ge im R) <= saturation_of im p)%Q) /\ (forall v, lo < v < R -> (saturation_of im p < inject_Z (n_ge im v))%Q).
Proof.
  intros U N W T S. pose proof (lohi t im lo hi U N T S) as (Hl & _). destruct (range_general t im lo hi U N W T S p true) as (h & mx & L & R & m & m' & _ & E & Emx & _ & Hm & EL & AL & BL & Hm' & ER & AR & BR). rewrite (Emx eq_refl) in *. fold (saturation_of im p) in *. cbn beta iota in *.
  exists L, R. split; [exact E|]. split; [destruct (m =? 0) eqn:K; lia|]. split; [destruct (m' =? 0) eqn:K; lia|]. split; [destruct (m =? 0) eqn:K, (m' =? 0) eqn:K'; lia|]. split; [|split; [|split]].
  - destruct (m =? 0) eqn:K; [left; exact EL|]. right. rewrite EL. replace (lo + m - 1) with (lo + (m - 1)) by lia. apply AL. lia.
  - intros v Hv. apply Qlt_le_trans with (inject_Z (n_le im (lo + m))); [apply BL; destruct (m =? 0) eqn:K; lia|]. rewrite <- Zle_Qle. apply n_le_mono. destruct (m =? 0) eqn:K; lia.
  - destruct (m' =? 0) eqn:K; [left; exact ER|]. right. rewrite ER. apply AR. lia.
  - intros v Hv. apply Qlt_le_trans with (inject_Z (n_ge im (hi - m'))); [apply BR; destruct (m' =? 0) eqn:K; lia|]. rewrite <- Zle_Qle. apply n_ge_mono. destruct (m' =? 0) eqn:K; lia.
Qed.

Theorem range_frequency t im lo hi p : is_signed t = false -> t <> UINT32 -> wf_img im -> typed_img t im -> spans im lo hi ->
  exists L R mx, histogramRange t im p false = Some (L, R) /\ lo <= L <= hi /\ lo <= R <= hi /\ (exists v, n_eq im v = mx) /\ (forall v, n_eq im v <= mx) /\
    let sat := (inject_Z mx * p / inject_Z 100)%Q in
    (L = lo \/ (forall v, lo <= v <= L -> (inject_Z (n_eq im v) <= sat)%Q)) /\ (L < hi - 1 -> (sat < inject_Z (n_eq im (L + 1)))%Q \/ L = lo /\ (sat < inject_Z (n_eq im L))%Q) /\
    (R = hi \/ (forall v, R <= v <= hi -> (inject_Z (n_eq im v) <= sat)%Q)) /\ (lo + 1 < R -> (sat < inject_Z (n_eq im (R - 1)))%Q \/ R = hi /\ (sat < inject_Z (n_eq im R))%Q).
Proof.
  intros U N W T S. pose proof (lohi t im lo hi U N T S) as (Hl & _). destruct (range_general t im lo hi U N W T S p false) as (h & mx & L & R & m & m' & _ & E & _ & Emx & Hm & EL & AL & BL & Hm' & ER & AR & BR). destruct (Emx eq_refl) as (M1 & M2). cbn beta iota in *.
  exists L, R, mx. split; [exact E|]. split; [destruct (m =? 0) eqn:K; lia|]. split; [destruct (m' =? 0) eqn:K; lia|]. split; [exact M1|]. split; [exact M2|]. split; [|split; [|split]].
  - destruct (m =? 0) eqn:K; [left; exact EL|]. right. intros v Hv. replace v with (lo + (v - lo)) by lia. apply AL. lia.
  - intros Hv. destruct (m =? 0) eqn:K.
    + right. split; [exact EL|]. rewrite EL. replace lo with (lo + m) by lia. apply BL. lia.
    + left. replace (L + 1) with (lo + m) by lia. apply BL. lia.
  - destruct (m' =? 0) eqn:K; [left; exact ER|]. right. intros v Hv. replace v with (hi - (hi - v)) by lia. apply AR. lia.
  - intros Hv. destruct (m' =? 0) eqn:K.
    + right. split; [exact ER|]. rewrite ER. replace hi with (hi - m') by lia. apply BR. lia.
    + left. replace (R - 1) with (hi - m') by lia. apply BR. lia.
Qed.

Theorem enhance_ok t im out lo hi p : is_signed t = false -> t <> UINT32 -> wf_img im -> typed_img t im -> spans im lo hi -> lo < hi -> (p < inject_Z 50)%Q -> sz out = sz im ->
  exists L R res, histogramRange t im p true = Some (L, R) /\ lo <= L < R /\ R <= hi /\ enhanceContrast t p im out = Some (1, res) /\ typed_img t res /\ stretched t L R (tmin t) (tmax t) im res /\
    (forall x y z v w, pixel_is im x y z v -> pixel_is res x y z w -> (v <= L -> w = tmin t) /\ (R <= v -> w = tmax t)) /\
    (forall x y z v w x' y' z' v' w', pixel_is im x y z v -> pixel_is res x y z w -> pixel_is im x' y' z' v' -> pixel_is res x' y' z' w' -> v <= v' -> w <= w').
Proof.
  intros U N W T S Hlt Hp Sz. pose proof (lohi t im lo hi U N T S) as (Hl & Hh & Ht & _). destruct (range_cumulative t im lo hi p U N W T S) as (L & R & E & HL & HR & In & AL & _ & AR & _). destruct (In Hlt) as (I1 & I2).
  assert (HLR : L < R).
  { destruct AL as [->|AL]; [exact I2|]. destruct AR as [->|AR]; [exact I1|]. destruct (Z.le_gt_cases R L) as [K|K]; [exfalso|exact K]. pose proof (n_cover im L R ltac:(lia)) as C. rewrite Zle_Qle, inject_Z_plus in C.
    assert (Np : (0 < inject_Z (Z.of_nat (length (pixs im))))%Q). { apply inj_pos. destruct S as (S1 & _). destruct (pixs im); [destruct S1|cbn; lia]. }
    unfold saturation_of in AL, AR. set (n := inject_Z (Z.of_nat (length (pixs im)))) in *. assert (n * p < n * inject_Z 50)%Q by (apply Qmult_lt_l; assumption).
    assert (E2 : (n * p / inject_Z 100 == n * p * (1 # 100))%Q) by reflexivity. rewrite E2 in AL, AR. change (inject_Z 50) with (50#1)%Q in *. lra. }
  destruct (stretch_ok t t L R (tmin t) (tmax t) im out W Sz) as (res & Es & Tr & St); try (unfold inty; lia). exists L, R, res. split; [exact E|]. split; [lia|]. split; [lia|]. split; [unfold enhanceContrast; rewrite E; cbn [option_bind fst snd]; rewrite Es; reflexivity|]. split; [exact Tr|]. split; [exact St|]. split.
  - intros x y z v w Pv Pw. destruct St as (_ & _ & St). destruct (St _ _ _ _ _ Pv Pw) as (R1 & R2 & _). rewrite Ht in *. split; intros Hv; [apply R2|apply R1]; nia.
  - intros x y z v w x' y' z' v' w' P1 P2 P3 P4. apply (stretched_mono t L R (tmin t) (tmax t) im res x y z x' y' z'); try assumption; try lia.
Qed.
