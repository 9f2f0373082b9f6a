From Verif Require Export Proofs.DrawProofs.
From Coq Require Import Lia.

(** The minor displacement after [k] steps along the major axis of length [A]: B * k / A rounded, halves downwards. *)
Definition minor (A B k : Z) : Z := (2 * B * k + A - 1) / (2 * A).

Lemma minor_spec A B k j : 0 < A -> j = minor A B k <-> - A < 2 * (B * k - A * j) <= A.
Proof.
  intros HA. unfold minor. pose proof (Z.div_mod (2 * B * k + A - 1) (2 * A) ltac:(lia)) as E.
  pose proof (Z.mod_pos_bound (2 * B * k + A - 1) (2 * A) ltac:(lia)) as R.
  set (q := (2 * B * k + A - 1) / (2 * A)) in *. split.
  - intros ->. nia.
  - intros H. assert (2 * A * (j - q) < 2 * A) by nia. assert (- (2 * A) < 2 * A * (j - q)) by nia. nia.
Qed.

Lemma minor_0 A B : 0 < A -> minor A B 0 = 0.
Proof. intros H. symmetry. apply minor_spec; lia. Qed.
Lemma minor_end A B : 0 < A -> minor A B A = B.
Proof. intros H. symmetry. apply minor_spec; lia. Qed.
Lemma minor_next A B k : 0 < A -> 0 <= B <= A ->
  minor A B (k + 1) = if 2 * B * (k + 1) - A * (2 * minor A B k + 1) <=? 0 then minor A B k else minor A B k + 1.
Proof.
  intros HA HB. pose proof (proj1 (minor_spec A B k _ HA) eq_refl) as H. symmetry. apply minor_spec; [exact HA|].
  destruct (Z.leb_spec (2 * B * (k + 1) - A * (2 * minor A B k + 1)) 0); nia.
Qed.
Lemma minor_range A B k : 0 < A -> 0 <= B <= A -> 0 <= k -> 0 <= minor A B k <= k.
Proof.
  intros HA HB Hk. pose proof (proj1 (minor_spec A B k _ HA) eq_refl) as H. nia.
Qed.

Definition bres_point (A B mx my ax ay x0 y0 k : Z) : Z * Z :=
  (x0 + k * ax + minor A B k * mx, y0 + k * ay + minor A B k * my).
Definition bres_line (clip : Z -> Z -> bool) (A B mx my ax ay x0 y0 n : Z) : list (Z * Z) :=
  filter (fun p => negb (clip (fst p) (snd p))) (map (bres_point A B mx my ax ay x0 y0) (zseq n)).

Lemma bres_loop_ok clip A B mx my ax ay x0 y0 : 0 < A < 2 ^ 29 -> 0 <= B <= A ->
  - 2 ^ 28 < x0 < 2 ^ 28 -> - 2 ^ 28 < y0 < 2 ^ 28 ->
  -1 <= ax <= 1 -> -1 <= ay <= 1 -> -1 <= mx <= 1 -> -1 <= my <= 1 ->
  bres_loop clip (A + 1) (2 * B) (2 * B - 2 * A) mx my ax ay (2 * B - A) x0 y0 = Some (bres_line clip A B mx my ax ay x0 y0 (A + 1)).
Proof.
  intros HA HB Hx Hy Hax Hay Hmx Hmy. unfold bres_loop.
  assert (forall k, 0 <= k -> k <= A + 1 ->
    fold_opt (fun st _ => bres_step clip (2 * B) (2 * B - 2 * A) mx my ax ay st) (zseq k) (2 * B - A, x0, y0, []) =
    Some (2 * B * (k + 1) - A * (2 * minor A B k + 1), fst (bres_point A B mx my ax ay x0 y0 k), snd (bres_point A B mx my ax ay x0 y0 k),
          bres_line clip A B mx my ax ay x0 y0 k)) as G.
  2: { rewrite G by lia. reflexivity. }
  apply (natlike_ind (fun k => k <= A + 1 -> _ = _)).
  - intros _. rewrite zseq_0 by lia. cbn [fold_opt]. unfold bres_line, bres_point. rewrite zseq_0 by lia. rewrite minor_0 by lia. cbn [map filter fst snd].
    f_equal. f_equal. f_equal. f_equal; lia. lia.
  - intros k Hk IH Hk1. unfold Z.succ in *. rewrite zseq_succ by lia. rewrite fold_opt_app, IH by lia. cbn [option_bind fold_opt].
    pose proof (minor_range A B k ltac:(lia) HB Hk) as Rk. pose proof (proj1 (minor_spec A B k _ ltac:(lia)) eq_refl) as Sk.
    unfold bres_step. set (F := 2 * B * (k + 1) - A * (2 * minor A B k + 1)) in *.
    assert (- 2 * A <= F <= 2 * A) as RF by (unfold F; nia).
    assert (bres_line clip A B mx my ax ay x0 y0 (k + 1) =
      (if clip (fst (bres_point A B mx my ax ay x0 y0 k)) (snd (bres_point A B mx my ax ay x0 y0 k)) then bres_line clip A B mx my ax ay x0 y0 k
       else bres_line clip A B mx my ax ay x0 y0 k ++ [bres_point A B mx my ax ay x0 y0 k])) as EL.
    { unfold bres_line. rewrite zseq_succ by lia. rewrite map_app, filter_app. cbn [map filter]. destruct (clip _ _); cbn [negb]; [apply app_nil_r|reflexivity]. }
    rewrite EL. rewrite <- surjective_pairing.
    assert (minor A B (k + 1) = if F <=? 0 then minor A B k else minor A B k + 1) as EM by (apply minor_next; lia).
    assert (forall a m, -1 <= a <= 1 -> -1 <= m <= 1 -> - (k + A + 1) <= k * a + minor A B k * m <= k + A + 1) as RP.
    { intros a m Ha Hm. assert (- k <= k * a <= k) by nia. assert (- k <= minor A B k * m <= k) by nia. lia. }
    pose proof (RP ax mx Hax Hmx). pose proof (RP ay my Hay Hmy).
    assert (- 2 ^ 31 <= (if F <=? 0 then F + 2 * B else F + (2 * B - 2 * A)) < 2 ^ 31) by (destruct (Z.leb_spec F 0); lia).
    rewrite (int_ck_ok (if F <=? 0 then F + 2 * B else F + (2 * B - 2 * A))) by assumption. cbn [option_bind].
    unfold bres_point. cbn [fst snd]. rewrite EM.
    rewrite int_ck_ok by (destruct (F <=? 0); lia). cbn [option_bind].
    rewrite int_ck_ok by (destruct (F <=? 0); lia). cbn [option_bind].
    apply (f_equal Some). apply f_equal2; [apply f_equal2; [apply f_equal2|]|reflexivity]; destruct (Z.leb_spec F 0) as [Q|Q]; unfold F; lia.
Qed.

Lemma bres_line_In clip A B mx my ax ay x0 y0 x y : In (x, y) (bres_line clip A B mx my ax ay x0 y0 (A + 1)) <->
  clip x y = false /\ exists k, 0 <= k <= A /\ x = x0 + k * ax + minor A B k * mx /\ y = y0 + k * ay + minor A B k * my.
Proof.
  unfold bres_line. rewrite filter_In, in_map_iff. cbn [fst snd]. rewrite negb_true_iff. split.
  - intros ((k & [= <- <-] & Hk) & Hc). apply zseq_In in Hk. split; [exact Hc|]. exists k. split; [lia|]. auto.
  - intros (Hc & k & Hk & Ex & Ey). split; [|exact Hc]. exists k. split; [unfold bres_point; congruence|]. apply zseq_In. lia.
Qed.

(** The points that the clipping lets through. *)
Definition passed (p1x p1y p2x p2y xMax yMax x y : Z) : Prop :=
  if p1x =? p2x then xMax = 0 \/ 0 <= x < xMax
  else if p1y =? p2y then yMax = 0 \/ 0 <= y < yMax
  else xMax = 0 \/ (0 <= x < xMax /\ 0 <= y < yMax).

Lemma clip_false xMax yMax x y : bres_clip xMax yMax x y = false <-> xMax = 0 \/ (0 <= x < xMax /\ 0 <= y < yMax).
Proof. unfold bres_clip. lia. Qed.

(** The list computed, after the exchange that puts the ends from left to right. *)
Definition bres_list (p1x p1y p2x p2y xMax yMax : Z) : list (Z * Z) :=
  if p1x =? p2x then bres_vertical p1x p1y p2y xMax
  else if p1y =? p2y then bres_horizontal p1x p2x p1y yMax
  else
    let dx := p2x - p1x in let dy := Z.abs (p2y - p1y) in let s := Z.sgn (p2y - p1y) in
    let clip := bres_clip xMax yMax in
    if dy <=? dx then bres_line clip dx dy 0 s 1 0 p1x p1y (dx + 1) else bres_line clip dy dx 1 0 0 s p1x p1y (dy + 1).

Lemma bresenham_list p1x p1y p2x p2y xMax yMax : small_int p1x -> small_int p1y -> small_int p2x -> small_int p2y ->
  bresenhamPoints p1x p1y p2x p2y xMax yMax = Some
    (if p1x >? p2x then if p1y =? p2y then bres_list p2x p2y p1x p1y xMax yMax else rev (bres_list p2x p2y p1x p1y xMax yMax)
     else bres_list p1x p1y p2x p2y xMax yMax).
Proof.
  unfold small_int. intros H1 H2 H3 H4.
  assert (forall p1x p1y p2x p2y, small_int p1x -> small_int p1y -> small_int p2x -> small_int p2y -> p1x <= p2x -> forall b,
    (if p1x =? p2x then option_bind (int_ck (Z.max p1y p2y + 1)) (fun _ => Some (bres_vertical p1x p1y p2y xMax))
     else if p1y =? p2y then option_bind (int_ck (p2x + 1)) (fun _ => Some (bres_horizontal p1x p2x p1y yMax))
     else
    option_bind (int_ck (p2y - p1y)) (fun dy =>
    option_bind (int_ck (p2x - p1x)) (fun dx =>
    option_bind (int_ck (2 * dx)) (fun dx2 =>
    option_bind (int_ck (2 * dy)) (fun dy2 =>
    option_bind (int_ck (dy2 - dx2)) (fun dy2_minus_dx2 =>
    option_bind (int_ck (dy2 + dx2)) (fun dy2_plus_dx2 =>
    let clip := bres_clip xMax yMax in
    option_map (fun points => if b : bool then rev points else points)
      (if dy >=? 0 then
         if dy <=? dx
         then option_bind (int_ck (dy2 - dx)) (fun F => bres_loop clip (dx + 1) dy2 dy2_minus_dx2 0 1 1 0 F p1x p1y)
         else option_bind (int_ck (dx2 - dy)) (fun F => bres_loop clip (dy + 1) dx2 (- dy2_minus_dx2) 1 0 0 1 F p1x p1y)
       else
         if dx >=? - dy
         then option_bind (int_ck (- dy2 - dx)) (fun F => bres_loop clip (dx + 1) (- dy2) (- dy2_plus_dx2) 0 (-1) 1 0 F p1x p1y)
         else option_bind (int_ck (dx2 + dy)) (fun F => bres_loop clip (- dy + 1) dx2 dy2_plus_dx2 1 0 0 (-1) F p1x p1y)))))))))
    = Some (if b && negb (p1x =? p2x) && negb (p1y =? p2y) then rev (bres_list p1x p1y p2x p2y xMax yMax) else bres_list p1x p1y p2x p2y xMax yMax)) as G.
  { clear. unfold small_int. intros p1x p1y p2x p2y H1 H2 H3 H4 Hle b. unfold bres_list.
    destruct (Z.eqb_spec p1x p2x) as [Ex|Nx]; [rewrite int_ck_ok by lia; cbn; rewrite andb_false_r; reflexivity|].
    destruct (Z.eqb_spec p1y p2y) as [Ey|Ny]; [rewrite int_ck_ok by lia; cbn; rewrite andb_false_r; reflexivity|].
    cbn [negb]. rewrite !andb_true_r. do 6 (rewrite int_ck_ok by lia; cbn [option_bind]). cbv zeta.
    set (clip := bres_clip xMax yMax).
    assert (forall X Y : list (Z * Z), X = Y -> option_map (fun points => if b then rev points else points) (Some X) = Some (if b then rev Y else Y)) as F.
    { intros X Y ->. reflexivity. }
    destruct (Z.geb_spec (p2y - p1y) 0) as [D|D].
    - replace (Z.abs (p2y - p1y)) with (p2y - p1y) by lia. replace (Z.sgn (p2y - p1y)) with 1 by lia.
      destruct (Z.leb_spec (p2y - p1y) (p2x - p1x)) as [C|C]; rewrite int_ck_ok by lia; cbn [option_bind].
      + rewrite bres_loop_ok by lia. apply F. reflexivity.
      + replace (- (2 * (p2y - p1y) - 2 * (p2x - p1x))) with (2 * (p2x - p1x) - 2 * (p2y - p1y)) by lia.
        rewrite bres_loop_ok by lia. apply F. reflexivity.
    - replace (Z.abs (p2y - p1y)) with (- (p2y - p1y)) by lia. replace (Z.sgn (p2y - p1y)) with (-1) by lia.
      destruct (Z.leb_spec (- (p2y - p1y)) (p2x - p1x)) as [C|C].
      + replace (p2x - p1x >=? - (p2y - p1y)) with true by lia. rewrite int_ck_ok by lia; cbn [option_bind].
        replace (- (2 * (p2y - p1y)) - (p2x - p1x)) with (2 * - (p2y - p1y) - (p2x - p1x)) by lia.
        replace (- (2 * (p2y - p1y))) with (2 * - (p2y - p1y)) by lia.
        replace (- (2 * (p2y - p1y) + 2 * (p2x - p1x))) with (2 * - (p2y - p1y) - 2 * (p2x - p1x)) by lia.
        rewrite bres_loop_ok by lia. apply F. reflexivity.
      + replace (p2x - p1x >=? - (p2y - p1y)) with false by lia. rewrite int_ck_ok by lia; cbn [option_bind].
        replace (2 * (p2x - p1x) + (p2y - p1y)) with (2 * (p2x - p1x) - - (p2y - p1y)) by lia.
        replace (2 * (p2y - p1y) + 2 * (p2x - p1x)) with (2 * (p2x - p1x) - 2 * - (p2y - p1y)) by lia.
        rewrite bres_loop_ok by lia. apply F. reflexivity. }
  unfold bresenhamPoints. destruct (Z.gtb_spec p1x p2x) as [S|S].
  - etransitivity; [apply (G p2x p2y p1x p1y) with (b := true); unfold small_int; lia|]. cbn [andb]. replace (p2x =? p1x) with false by lia. cbn [negb andb].
    rewrite (Z.eqb_sym p2y p1y). destruct (p1y =? p2y); reflexivity.
  - etransitivity; [apply (G p1x p1y p2x p2y) with (b := false); unfold small_int; lia|]. reflexivity.
Qed.

Lemma bres_list_In p1x p1y p2x p2y xMax yMax x y : p1x <= p2x ->
  In (x, y) (bres_list p1x p1y p2x p2y xMax yMax) <-> segment_from p1x p1y p2x p2y x y /\ passed p1x p1y p2x p2y xMax yMax x y.
Proof.
  intros Hle. unfold bres_list, passed, segment_from. destruct (Z.eqb_spec p1x p2x) as [Ex|Nx]; [|destruct (Z.eqb_spec p1y p2y) as [Ey|Ny]].
  - subst p2x. unfold bres_vertical.
    assert (In (x, y) (map (fun y0 => (p1x, y0)) (zrange (Z.min p1y p2y) (Z.max p1y p2y - Z.min p1y p2y + 1))) <-> x = p1x /\ Z.min p1y p2y <= y <= Z.max p1y p2y) as I.
    { rewrite in_map_iff. split; [intros (y' & [= <- <-] & Hy); apply zrange_In in Hy; lia|intros (-> & Hy); exists y; split; [reflexivity|apply zrange_In; lia]]. }
    replace (if p1y >? p2y then (p2y, p1y) else (p1y, p2y)) with (Z.min p1y p2y, Z.max p1y p2y) by (destruct (Z.gtb_spec p1y p2y); f_equal; lia).
    replace (p1x - p1x) with 0 by lia.
    assert (((x = p1x /\ y = p1y) \/
      (if Z.abs (p2y - p1y) <=? 0 then 0 <= x - p1x <= 0 /\ - 0 < 2 * (Z.abs (p2y - p1y) * (x - p1x) - 0 * (if p1y <=? p2y then y - p1y else p1y - y)) <= 0
       else 0 <= (if p1y <=? p2y then y - p1y else p1y - y) <= Z.abs (p2y - p1y) /\
            - Z.abs (p2y - p1y) < 2 * (0 * (if p1y <=? p2y then y - p1y else p1y - y) - Z.abs (p2y - p1y) * (x - p1x)) <= Z.abs (p2y - p1y))) <->
      x = p1x /\ Z.min p1y p2y <= y <= Z.max p1y p2y) as J.
    { destruct (Z.leb_spec (Z.abs (p2y - p1y)) 0) as [Q|Q]; [lia|]. set (d := Z.abs (p2y - p1y)) in *. destruct (Z.leb_spec p1y p2y).
      - split; [intros [?|(? & ?)]; [lia|]; assert (x - p1x = 0) by nia; lia|]. intros (-> & ?). right. replace (p1x - p1x) with 0 by lia. lia.
      - split; [intros [?|(? & ?)]; [lia|]; assert (x - p1x = 0) by nia; lia|]. intros (-> & ?). right. replace (p1x - p1x) with 0 by lia. lia. }
    cbv zeta. rewrite J. destruct (Z.eqb_spec xMax 0) as [E0|E0]; cbn [orb]; [rewrite I; tauto|].
    destruct (Z.geb_spec p1x 0) as [G0|G0]; destruct (Z.ltb_spec p1x xMax) as [G1|G1]; cbn [andb]; rewrite ?I; cbn [In]; lia.
  - subst p2y. unfold bres_horizontal.
    assert (In (x, y) (map (fun x0 => (x0, p1y)) (zrange p1x (p2x - p1x + 1))) <-> y = p1y /\ p1x <= x <= p2x) as I.
    { rewrite in_map_iff. split; [intros (y' & [= <- <-] & Hy); apply zrange_In in Hy; lia|intros (-> & Hy); exists x; split; [reflexivity|apply zrange_In; lia]]. }
    replace (Z.abs (p1y - p1y)) with 0 by lia. replace (0 <=? p2x - p1x) with true by lia. replace (p1y <=? p1y) with true by lia.
    assert (((x = p1x /\ y = p1y) \/ (0 <= x - p1x <= p2x - p1x /\ - (p2x - p1x) < 2 * (0 * (x - p1x) - (p2x - p1x) * (y - p1y)) <= p2x - p1x)) <->
      y = p1y /\ p1x <= x <= p2x) as J.
    { set (d := p2x - p1x) in *. assert (0 < d) by lia. split; [intros [?|(? & ?)]; [lia|]; assert (y - p1y = 0) by nia; lia|].
      intros (-> & ?). right. replace (p1y - p1y) with 0 by lia. lia. }
    cbv zeta. rewrite J. destruct (Z.eqb_spec yMax 0) as [E0|E0]; cbn [orb]; [rewrite I; tauto|].
    destruct (Z.geb_spec p1y 0) as [G0|G0]; destruct (Z.ltb_spec p1y yMax) as [G1|G1]; cbn [andb]; rewrite ?I; cbn [In]; lia.
  - cbv zeta. set (dx := p2x - p1x). set (dy := Z.abs (p2y - p1y)). set (j := if p1y <=? p2y then y - p1y else p1y - y).
    assert (0 < dx /\ 0 < dy) as (Pdx & Pdy) by (unfold dx, dy; lia).
    assert (y = p1y + Z.sgn (p2y - p1y) * j) as Ej by (unfold j; destruct (Z.leb_spec p1y p2y); [replace (Z.sgn (p2y - p1y)) with 1 by lia|replace (Z.sgn (p2y - p1y)) with (-1) by lia]; lia).
    assert (forall t, y = p1y + Z.sgn (p2y - p1y) * t -> j = t) as Uj.
    { intros t Et. unfold j. destruct (Z.leb_spec p1y p2y); [replace (Z.sgn (p2y - p1y)) with 1 in Et by lia|replace (Z.sgn (p2y - p1y)) with (-1) in Et by lia]; lia. }
    destruct (dy <=? dx); rewrite bres_line_In, clip_false.
    + split.
      * intros (Hc & k & Hk & Ex & Ey). split; [|exact Hc]. right. assert (j = minor dx dy k) as Ek by (apply Uj; lia).
        replace (x - p1x) with k by lia. split; [exact Hk|]. apply minor_spec in Ek; [exact Ek|exact Pdx].
      * intros (HS & Hc). split; [exact Hc|]. assert (0 <= x - p1x <= dx /\ - dx < 2 * (dy * (x - p1x) - dx * j) <= dx) as (H1 & H2).
        { destruct HS as [(-> & ->)|HS]; [|exact HS]. assert (j = 0) as -> by (apply Uj; lia). replace (p1x - p1x) with 0 by lia. lia. }
        exists (x - p1x). split; [exact H1|]. split; [lia|]. apply minor_spec in H2; [|exact Pdx]. rewrite <- H2. lia.
    + split.
      * intros (Hc & k & Hk & Ex & Ey). split; [|exact Hc]. right. assert (j = k) as -> by (apply Uj; lia).
        split; [exact Hk|]. replace (x - p1x) with (minor dy dx k) by lia. apply minor_spec; [exact Pdy|reflexivity].
      * intros (HS & Hc). split; [exact Hc|]. assert (0 <= j <= dy /\ - dy < 2 * (dx * j - dy * (x - p1x)) <= dy) as (H1 & H2).
        { destruct HS as [(-> & ->)|HS]; [|exact HS]. assert (j = 0) as -> by (apply Uj; lia). replace (p1x - p1x) with 0 by lia. lia. }
        exists j. split; [exact H1|]. apply minor_spec in H2; [|exact Pdy]. rewrite <- H2. lia.
Qed.

Lemma bresenham_ok p1x p1y p2x p2y xMax yMax : small_int p1x -> small_int p1y -> small_int p2x -> small_int p2y ->
  exists ps, bresenhamPoints p1x p1y p2x p2y xMax yMax = Some ps /\
    forall x y, In (x, y) ps <-> segment p1x p1y p2x p2y x y /\ passed p1x p1y p2x p2y xMax yMax x y.
Proof.
  intros H1 H2 H3 H4. rewrite bresenham_list by assumption. eexists. split; [reflexivity|]. intros x y. unfold segment.
  destruct (Z.gtb_spec p1x p2x) as [S|S].
  - replace (p1x <=? p2x) with false by lia.
    assert (passed p2x p2y p1x p1y xMax yMax x y <-> passed p1x p1y p2x p2y xMax yMax x y) as <- by (unfold passed; rewrite (Z.eqb_sym p2x), (Z.eqb_sym p2y); tauto).
    destruct (p1y =? p2y); rewrite <- ?in_rev; apply bres_list_In; lia.
  - replace (p1x <=? p2x) with true by lia. apply bres_list_In. lia.
Qed.
