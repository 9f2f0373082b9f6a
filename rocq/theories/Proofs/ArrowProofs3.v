(** The propagation along arrows. *)
From Verif Require Export Proofs.ArrowProofs2 Proofs.LabelProofs.

(** ** Breadth-first propagation on offsets *)
Definition visit (v : Z) (st : list Z * list Z) (nb : Z) : option (list Z * list Z) :=
  option_bind (rd (fst st) nb) (fun o =>
  if o =? v then Some st else option_bind (wr (fst st) nb v) (fun out => Some (out, snd st ++ [nb]))).

Definition others (v : Z) (out : list Z) : nat := length (filter (fun o => negb (o =? v)) out).

Lemma others_upd v out : forall n o, nth_error out n = Some o -> o <> v -> S (others v (upd_nat out n v)) = others v out.
Proof.
  unfold others. induction out as [|a out IH]; intros [|n] o E N; try discriminate; cbn [nth_error upd_nat filter] in *.
  - injection E as ->. rewrite Z.eqb_refl. replace (o =? v) with false by lia. reflexivity.
  - destruct (negb (a =? v)); cbn [length]; rewrite <- (IH n o E N); reflexivity.
Qed.
Lemma others_wr v out i o out' : rd out i = Some o -> o <> v -> wr out i v = Some out' -> S (others v out') = others v out.
Proof.
  unfold rd, wr. destruct (0 <=? i); [|discriminate]. intros E N. cbn [andb]. destruct (i <? _); [|discriminate]. intros [= <-]. eapply others_upd; eassumption.
Qed.
Lemma others_le v out : (others v out <= length out)%nat.
Proof. unfold others. induction out as [|a out IH]; [cbn; lia|]. cbn [filter length]. destruct (negb (a =? v)); cbn [length]; lia. Qed.

Lemma visit_all v : forall l out rest, (forall o, In o l -> 0 <= o < Z.of_nat (length out)) ->
  exists out' new, fold_opt (visit v) l (out, rest) = Some (out', rest ++ new) /\ length out' = length out /\
    (forall o, In o l -> rd out' o = Some v) /\ (forall o, ~ In o l -> rd out' o = rd out o) /\
    (forall o, In o new <-> In o l /\ rd out o <> Some v) /\ (others v out' + length new = others v out)%nat.
Proof.
  induction l as [|a l IH]; intros out rest Hr.
  - exists out, []. rewrite app_nil_r. cbn. repeat split; try tauto. lia.
  - cbn [fold_opt]. unfold visit at 1. cbn [fst snd]. destruct (rd_in_range out a (Hr a (or_introl eq_refl))) as (o & Eo). rewrite Eo. cbn [option_bind].
    destruct (o =? v) eqn:Ev.
    + assert (o = v) as -> by lia. destruct (IH out rest ltac:(intros q Hq; apply Hr; right; exact Hq)) as (out' & new & E & L & I1 & I2 & I3 & M). exists out', new. split; [exact E|]. split; [exact L|].
      split; [|split; [|split; [|exact M]]].
      * intros q [<-|Q]; [|apply I1; exact Q]. destruct (in_dec Z.eq_dec a l) as [Ia|Na]; [apply I1; exact Ia|rewrite I2 by exact Na; exact Eo].
      * intros q Q. apply I2. intros X. apply Q. right. exact X.
      * intros q. rewrite I3. split; [intros (X & Y); split; [right; exact X|exact Y]|]. intros ([<-|X] & Y); [contradiction|auto].
    + destruct (wr_Some out a v (Hr a (or_introl eq_refl))) as (out1 & E1). rewrite E1. cbn [option_bind]. pose proof (wr_length _ _ _ _ E1) as L1.
      destruct (IH out1 (rest ++ [a])) as (out' & new & E & L & I1 & I2 & I3 & M); [intros q Hq; rewrite L1; apply Hr; right; exact Hq|].
      exists out', (a :: new). rewrite <- app_assoc in E. cbn [app] in E. split; [exact E|]. split; [lia|]. split; [|split; [|split]].
      * intros q [<-|Q]; [|apply I1; exact Q]. destruct (in_dec Z.eq_dec a l) as [Ia|Na]; [apply I1; exact Ia|rewrite I2 by exact Na; rewrite (rd_wr _ _ _ _ _ E1), Z.eqb_refl; reflexivity].
      * intros q Q. rewrite I2 by (intros X; apply Q; right; exact X). rewrite (rd_wr _ _ _ _ _ E1). replace (a =? q) with false; [reflexivity|]. symmetry. apply Z.eqb_neq. intros ->. apply Q. left. reflexivity.
      * intros q. cbn [In]. rewrite I3, (rd_wr _ _ _ _ _ E1). destruct (a =? q) eqn:Eq.
        -- assert (a = q) as <- by lia. split; [|auto]. intros _. split; [left; reflexivity|]. rewrite Eo. intros [= ->]. lia.
        -- split; [intros [->|(X & Y)]; [lia|auto]|]. intros ([->|X] & Y); [lia|auto].
      * cbn [length]. pose proof (others_wr v out a o out1 Eo ltac:(lia) E1). lia.
Qed.

Section Spread.
Variables (v : Z) (out0 : list Z) (o0 : Z) (aims : Z -> list Z).
Hypothesis Haims : forall o q, 0 <= o < Z.of_nat (length out0) -> In q (aims o) -> 0 <= q < Z.of_nat (length out0).
Hypothesis Ho0 : 0 <= o0 < Z.of_nat (length out0).

Inductive spread : Z -> Prop :=
| spread_first o u : In o (aims o0) -> rd out0 o = Some u -> u <> v -> spread o
| spread_next o' o u : spread o' -> In o (aims o') -> rd out0 o = Some u -> u <> v -> spread o.

Definition sinv (out q : list Z) : Prop :=
  length out = length out0 /\
  (forall o, rd out o = rd out0 o \/ rd out o = Some v /\ spread o) /\
  (forall o, In o q -> o = o0 \/ spread o) /\
  (forall o, o = o0 \/ (spread o /\ rd out o = Some v) -> In o q \/ forall o', In o' (aims o) -> rd out o' = Some v).

Lemma spread_range o : spread o -> 0 <= o < Z.of_nat (length out0) /\ exists u, rd out0 o = Some u /\ u <> v.
Proof using. clear. intros H. inversion H as [? u _ E N|? ? u _ _ E N]; subst; (split; [eapply rd_Some_range; exact E|eauto]). Qed.

Lemma sinv_first : sinv out0 [o0].
Proof using.
  clear. split; [reflexivity|]. split; [left; reflexivity|]. split; [intros o [<-|[]]; left; reflexivity|].
  intros o [->|(S & R)]; [left; left; reflexivity|]. destruct (spread_range o S) as (_ & u & E & N). congruence.
Qed.

Lemma sinv_turn out o rest : sinv out (o :: rest) ->
  exists out' q', fold_opt (visit v) (aims o) (out, rest) = Some (out', q') /\ sinv out' q' /\ (others v out' + length q' = others v out + length rest)%nat.
Proof using Haims Ho0.
  intros (L & A & Q & C). assert (Ro : 0 <= o < Z.of_nat (length out0)) by (destruct (Q o (or_introl eq_refl)) as [->|S]; [exact Ho0|apply spread_range; exact S]).
  destruct (visit_all v (aims o) out rest) as (out' & new & E & L' & I1 & I2 & I3 & M); [intros q Hq; rewrite L; eapply Haims; eassumption|].
  assert (Hnew : forall q, In q (aims o) -> rd out q <> Some v -> spread q).
  { intros q Iq Nq. destruct (A q) as [Eq|(Eq & _)]; [|congruence]. destruct (rd_in_range out0 q (Haims o q Ro Iq)) as (u & Eu).
    assert (u <> v) by congruence. destruct (Q o (or_introl eq_refl)) as [->|S]; [eapply spread_first; eassumption|eapply spread_next; eassumption]. }
  exists out', (rest ++ new). split; [exact E|]. split; [|rewrite app_length; lia]. split; [lia|]. split; [|split].
  - intros q. destruct (in_dec Z.eq_dec q (aims o)) as [I|N]; [|rewrite I2 by exact N; apply A].
    rewrite (I1 q I). destruct (A q) as [Eq|(Eq & S)]; [|right; auto].
    destruct (rd_in_range out0 q (Haims o q Ro I)) as (u & Eu). destruct (Z.eq_dec u v) as [->|Nu]; [left; congruence|right]. split; [reflexivity|]. apply Hnew; [exact I|congruence].
  - intros q Iq. apply in_app_iff in Iq as [Iq|Iq]; [apply Q; right; exact Iq|]. apply I3 in Iq as (Iq & Nq). right. apply Hnew; assumption.
  - intros q Hq. assert (Mono : forall q', rd out q' = Some v -> rd out' q' = Some v) by (intros q' R; destruct (in_dec Z.eq_dec q' (aims o)) as [I|N]; [apply I1; exact I|rewrite I2 by exact N; exact R]).
    assert (Old : q = o0 \/ (spread q /\ rd out q = Some v) -> In q (rest ++ new) \/ (forall o', In o' (aims q) -> rd out' o' = Some v)).
    { intros H. destruct (C q H) as [[<-|I]|K]; [right; exact I1|left; apply in_or_app; left; exact I|right; intros o' Io'; apply Mono; apply K; exact Io']. }
    destruct Hq as [->|(S & R)]; [apply Old; left; reflexivity|].
    assert (D : rd out q = Some v \/ rd out q <> Some v) by (destruct (rd out q) as [w|]; [destruct (Z.eq_dec w v) as [->|]; [left; reflexivity|right; congruence]|right; discriminate]). destruct D as [R0|R0]; [apply Old; right; auto|].
    left. apply in_or_app. right. apply I3. split; [|exact R0]. destruct (in_dec Z.eq_dec q (aims o)) as [I|N]; [exact I|]. rewrite I2 in R by exact N. congruence.
Qed.

Lemma sinv_done out : sinv out [] -> forall o, (spread o /\ rd out o = Some v) \/ (~ spread o /\ rd out o = rd out0 o).
Proof using.
  clear. intros (L & A & Q & C).
  assert (H : forall o, spread o -> rd out o = Some v).
  { intros o S. induction S as [o u I E N|o' o u S IH I E N].
    - destruct (C o0 (or_introl eq_refl)) as [[]|K]. apply K. exact I.
    - destruct (C o' (or_intror (conj S IH))) as [[]|K]. apply K. exact I. }
  intros o. destruct (A o) as [E|(E & S)]; [|left; auto]. destruct (rd out0 o) as [u|] eqn:E0.
  - destruct (Z.eq_dec u v) as [->|N]; [right|right]; (split; [|congruence]); intros S.
    + destruct (spread_range o S) as (_ & w & Ew & Nw). congruence.
    + specialize (H o S). congruence.
  - right. split; [|congruence]. intros S. destruct (spread_range o S) as (_ & w & Ew & _). congruence.
Qed.
End Spread.

(** ** arrowPropagate *)
Lemma arrow_coords_ok s x y z : int_sized s -> inside s x y z -> arrow_coords s (voxel_offset (dw s) (dh s) x y z) = Some (x, y, z).
Proof.
  intros Hs Hi. pose proof Hs as (Bw & Bh & Bd & Bn). pose proof Hi as (Ix & Iy & Iz). pose proof (inside_range _ _ _ _ Hi) as R.
  unfold arrow_coords. cbv zeta. assert (1 <= dd s) by lia. assert (0 < dh s * dw s) by nia. assert (dh s * dw s <= dw s * dh s * dd s) by nia.
  assert (to_size (dh s * dw s) = dh s * dw s) as -> by (unfold to_size; apply Z.mod_small; lia).
  destruct ((dh s * dw s =? 0) || (dw s =? 0)) eqn:E; [lia|].
  assert (Ev : voxel_offset (dw s) (dh s) x y z = x + y * dw s + z * (dh s * dw s)) by (unfold voxel_offset; ring). rewrite Ev in *.
  assert (0 <= y * dw s) by nia. assert (y * dw s + dw s <= dh s * dw s) by nia.
  assert (Ez : (x + y * dw s + z * (dh s * dw s)) / (dh s * dw s) = z) by (symmetry; apply Z.div_unique with (x + y * dw s); [left; nia|ring]).
  assert (Em : (x + y * dw s + z * (dh s * dw s)) mod (dh s * dw s) = x + y * dw s) by (symmetry; apply Z.mod_unique with z; [left; nia|ring]).
  rewrite Ez, Em. assert (Ey : (x + y * dw s) / dw s = y) by (symmetry; apply Z.div_unique with x; [left; lia|ring]). rewrite Ey.
  assert (Ex : (x + y * dw s + z * (dh s * dw s)) mod dw s = x) by (symmetry; apply Z.mod_unique with (y + z * dh s); [left; lia|ring]). rewrite Ex. reflexivity.
Qed.

Lemma land_bit t a n : is_signed t = false -> 0 <= n -> (Z.land a (wrap t (2 ^ n)) =? 0) = negb ((n <? nbits t) && Z.testbit a n).
Proof.
  intros Hu Hn. assert (E : Z.land a (wrap t (2 ^ n)) = if (n <? nbits t) && Z.testbit a n then 2 ^ n else 0).
  { apply Z.bits_inj. intros k. destruct (Z_lt_le_dec k 0) as [Ng|Hk]; [rewrite !Z.testbit_neg_r by exact Ng; reflexivity|].
    rewrite Z.land_spec, wrap_bit by exact Hu. rewrite Z.pow2_bits_eqb by exact Hn.
    destruct (n =? k) eqn:E.
    - assert (n = k) as <- by lia. destruct (n <? nbits t), (Z.testbit a n); cbn [andb]; try (rewrite Z.testbit_0_l; reflexivity). rewrite Z.pow2_bits_true by exact Hn. reflexivity.
    - rewrite !andb_false_r. destruct (_ && _); [|rewrite Z.testbit_0_l; reflexivity]. rewrite Z.pow2_bits_eqb, E by exact Hn. reflexivity. }
  rewrite E. destruct (_ && _); cbn [negb]; [|reflexivity]. assert (0 < 2 ^ n) by (apply Z.pow_pos_nonneg; lia). lia.
Qed.

Lemma to_size_pos z : 0 <= z < 2 ^ 62 -> to_size z = z.
Proof. intros H. unfold to_size. apply Z.mod_small. lia. Qed.
Lemma to_size_neg z : - 2 ^ 62 < z < 0 -> to_size z = z + 2 ^ 64.
Proof. intros H. unfold to_size. symmetry. apply Z.mod_unique with (-1); lia. Qed.
Lemma to_size_odd z : - 2 ^ 62 < z < 2 ^ 62 -> oddb (to_size z + 1) = Z.even z.
Proof.
  intros H. rewrite oddb_odd, Z.odd_add. change (Z.odd 1) with true. rewrite Bool.xorb_true_r, Z.negb_odd.
  destruct (Z_lt_le_dec z 0) as [N|P]; [rewrite to_size_neg by lia; rewrite Z.even_add; change (Z.even (2 ^ 64)) with true; destruct (Z.even z); reflexivity|rewrite to_size_pos by lia; reflexivity].
Qed.

Definition target (t : ity) (se : strelt) (s : dims) (xyz : Z * Z * Z) (a : Z) (np : Z * point) : list Z :=
  let '(x, y, z) := xyz in let '(n, p) := np in
  if (n <? nbits t) && Z.testbit a n && insideb s (ahead_x (se_odd se) x y p) (y + py_ p) (z + pz_ p)
  then [voxel_offset (dw s) (dh s) (ahead_x (se_odd se) x y p) (y + py_ p) (z + pz_ p)] else [].

Lemma arrow_step_ok t se s v x0 y0 z0 a st n p : is_signed t = false -> int_sized s -> inside s x0 y0 z0 -> 0 <= n < 64 ->
  Z.abs (px_ p) < 2 ^ 30 -> Z.abs (py_ p) < 2 ^ 30 -> Z.abs (pz_ p) < 2 ^ 30 ->
  arrow_step t se s v (x0, y0, z0) a st (n, p) = fold_opt (visit v) (target t se s (x0, y0, z0) a (n, p)) st.
Proof.
  intros Hu Hs Hi Hn Bx By Bz. pose proof Hs as (Bw & Bh & Bd & Bn). pose proof Hi as (Ix & Iy & Iz).
  unfold arrow_step, target, arrow_bit. replace (n <? 64) with true by lia. cbn [option_bind]. rewrite land_bit by (assumption || lia).
  destruct ((n <? nbits t) && Z.testbit a n) eqn:Eb; cbn [negb andb]; [|reflexivity].
  set (X := ahead_x (se_odd se) x0 y0 p). set (Y := y0 + py_ p). set (Z' := z0 + pz_ p).
  assert (HX : x0 + px_ p + (if se_odd se && oddb y0 then bit (oddb (to_size Y + 1)) else 0) = X).
  { unfold X, ahead_x. rewrite to_size_odd by (unfold Y; lia). rewrite oddb_odd. fold Y. destruct (se_odd se && Z.odd y0); [|cbn; lia]. cbn [andb]. destruct (Z.even Y); reflexivity. }
  set (sh := if se_odd se && oddb y0 then bit (oddb (to_size Y + 1)) else 0) in *.
  assert (Hsh : 0 <= sh <= 1) by (unfold sh, bit; repeat match goal with |- context [if ?c then _ else _] => destruct c end; lia).
  assert (EX : to_size (to_size (x0 + px_ p) + sh) = to_size X).
  { unfold to_size. rewrite Zplus_mod_idemp_l, HX. reflexivity. }
  rewrite EX. clearbody sh. clear EX. unfold insideb.
  assert (BX : - 2 ^ 62 < X < 2 ^ 62) by (rewrite <- HX; lia). assert (BY : - 2 ^ 62 < Y < 2 ^ 62) by (unfold Y; lia). assert (BZ : - 2 ^ 62 < Z' < 2 ^ 62) by (unfold Z'; lia).
  clearbody X Y Z'. clear HX.
  assert (T : forall c b, - 2 ^ 62 < c < 2 ^ 62 -> 0 <= b < 2 ^ 30 -> (to_size c <? b) = (0 <=? c) && (c <? b)).
  { intros c b Hc Hb. destruct (Z_lt_le_dec c 0) as [N|P]; [rewrite to_size_neg by lia; lia|rewrite to_size_pos by lia; lia]. }
  rewrite !T by lia.
  assert (E : ((0 <=? X) && (X <? dw s) && ((0 <=? Y) && (Y <? dh s)) && ((0 <=? Z') && (Z' <? dd s))) =
              ((0 <=? X) && (X <? dw s) && (0 <=? Y) && (Y <? dh s) && (0 <=? Z') && (Z' <? dd s))) by lia.
  rewrite E. match goal with |- (if ?c then _ else _) = _ => destruct c eqn:EI end; [|reflexivity].
  assert (In' : inside s X Y Z') by (unfold inside; lia). pose proof (inside_range _ _ _ _ In') as R.
  rewrite (to_size_pos X), (to_size_pos Y), (to_size_pos Z') by lia. replace (X + Y * dw s + Z' * dh s * dw s) with (voxel_offset (dw s) (dh s) X Y Z') by (unfold voxel_offset; ring).
  rewrite to_size_pos by lia. cbn [fold_opt]. unfold visit. destruct (rd (fst st) _) as [o|]; cbn [option_bind]; [|reflexivity].
  destruct (o =? v); [reflexivity|]. destruct (wr _ _ _); reflexivity.
Qed.

Lemma numbered_In l n p : In (n, p) (numbered l) <-> rd l n = Some p.
Proof.
  unfold numbered. split.
  - intros H. apply In_rd in H as (i & Hi & E). assert (G : forall (a : list Z) (b : list point) i, rd (combine a b) i = match rd a i, rd b i with Some x, Some y => Some (x, y) | _, _ => None end).
    { clear. intros a b i. unfold rd. destruct (0 <=? i); [|reflexivity]. generalize (Z.to_nat i). clear i. intros i. revert b i. induction a as [|x a IH]; intros [|y b] [|i]; try reflexivity; cbn; [destruct (nth_error a i); reflexivity|apply IH]. }
    rewrite G in E. destruct (rd (zseq _) i) as [m|] eqn:E1; [|discriminate]. destruct (rd l i) as [q|] eqn:E2; [|discriminate]. injection E as -> ->.
    pose proof (rd_Some_range _ _ _ E2). rewrite rd_zseq in E1 by lia. injection E1 as ->. exact E2.
  - intros H. pose proof (rd_Some_range _ _ _ H) as R. assert (G : forall (a : list Z) (b : list point) i, rd (combine a b) i = match rd a i, rd b i with Some x, Some y => Some (x, y) | _, _ => None end).
    { clear. intros a b i. unfold rd. destruct (0 <=? i); [|reflexivity]. generalize (Z.to_nat i). clear i. intros i. revert b i. induction a as [|x a IH]; intros [|y b] [|i]; try reflexivity; cbn; [destruct (nth_error a i); reflexivity|apply IH]. }
    apply (rd_In _ n). rewrite G, H, rd_zseq by lia. reflexivity.
Qed.

Section Propagate.
Variables (t : ity) (se : strelt) (arrows : img).
Hypothesis Hu : is_signed t = false.
Hypothesis HW : wf_img arrows.
Hypothesis Hs : int_sized (sz arrows).
Hypothesis HP : int_points se.
Hypothesis HL : (length (se_points se) <= 64)%nat.
Let s := sz arrows.

Definition aims (o : Z) : list Z :=
  match arrow_coords s o, rd (pixs arrows) o with Some xyz, Some a => flat_map (target t se s xyz a) (numbered (se_points se)) | _, _ => [] end.

Lemma aims_spec x y z o' : inside s x y z ->
  (In o' (aims (voxel_offset (dw s) (dh s) x y z)) <-> exists x' y' z', leads t se arrows x y z x' y' z' /\ o' = voxel_offset (dw s) (dh s) x' y' z').
Proof using Hu HW Hs HP HL.
  intros Hi. unfold aims. rewrite arrow_coords_ok by assumption. destruct (LoopFacts.pixel_exists arrows x y z HW Hi) as (a & Pa). pose proof Pa as (_ & Ea). fold s in Ea. rewrite Ea.
  rewrite in_flat_map. split.
  - intros ((n & p) & I & T). apply numbered_In in I. unfold target in T. destruct (_ && _) eqn:B; [|destruct T]. destruct T as [<-|[]].
    rewrite !andb_true_iff in B. destruct B as ((B1 & B2) & B3). apply insideb_spec in B3. exists (ahead_x (se_odd se) x y p), (y + py_ p), (z + pz_ p).
    split; [|reflexivity]. exists n, p, a. split; [exact I|]. split; [lia|]. split; [exact Pa|]. split; [exact B2|]. do 3 (split; [reflexivity|]). exact B3.
  - intros (x' & y' & z' & (n & p & a' & R & Ln & Pa' & Bn & Ex & Ey & Ez & I') & Eo). exists (n, p). split; [apply numbered_In; exact R|].
    rewrite (LoopFacts.pixel_is_fun _ _ _ _ _ _ Pa' Pa) in Bn. unfold target. rewrite <- Ex, <- Ey, <- Ez. apply insideb_spec in I'. fold s in I'. rewrite I', Bn. replace (n <? nbits t) with true by lia. left. symmetry. exact Eo.
Qed.

Lemma aims_range o q : 0 <= o < dw s * dh s * dd s -> In q (aims o) -> 0 <= q < dw s * dh s * dd s.
Proof using Hu HW Hs HP HL.
  intros Ho I. destruct (LoopFacts.voxel_surj s o ltac:(apply HW) Ho) as (x & y & z & Hi & ->). apply aims_spec in I; [|exact Hi]. destruct I as (x' & y' & z' & (n & p & a & _ & _ & _ & _ & _ & _ & _ & I') & ->).
  apply inside_range. exact I'.
Qed.

Lemma points_ok v x y z a st : inside s x y z -> fold_opt (arrow_step t se s v (x, y, z) a) (numbered (se_points se)) st = fold_opt (visit v) (flat_map (target t se s (x, y, z) a) (numbered (se_points se))) st.
Proof using Hu HW Hs HP HL.
  intros Hi. rewrite fold_opt_flat_map. apply fold_opt_ext. intros st' (n & p) I. apply numbered_In in I. pose proof (rd_Some_range _ _ _ I) as R. destruct (HP p (rd_In _ _ _ I)) as (B1 & B2 & B3).
  apply arrow_step_ok; try assumption. lia.
Qed.

Lemma arrow_loop_ok v out0 o0 : length out0 = length (pixs arrows) -> 0 <= o0 < Z.of_nat (length out0) ->
  forall fuel out q, sinv v out0 o0 aims out q -> (others v out + length q <= fuel)%nat ->
  exists out', arrow_loop fuel t se s (pixs arrows) v out q = Some (Some out') /\ sinv v out0 o0 aims out' [].
Proof using Hu HW Hs HP HL.
  intros L0 Ho0. assert (N : Z.of_nat (length out0) = dw s * dh s * dd s) by (rewrite L0; apply HW).
  induction fuel as [|fuel IH]; intros out [|o rest] I M; cbn [arrow_loop]; try (exists out; split; [reflexivity|exact I]); [cbn [length] in M; lia|].
  assert (Ro : 0 <= o < Z.of_nat (length out0)) by (destruct (proj1 (proj2 (proj2 I)) o (or_introl eq_refl)) as [->|S]; [exact Ho0|apply (spread_range _ _ _ _ _ S)]).
  destruct (sinv_turn v out0 o0 aims) with (out := out) (o := o) (rest := rest) as (out' & q' & E & I' & M'); [|exact Ho0|exact I|].
  { intros o1 q1 Ro1 Iq. rewrite N in *. eapply aims_range; eassumption. }
  rewrite N in Ro. destruct (LoopFacts.voxel_surj s o ltac:(apply HW) Ro) as (x & y & z & Hi & Eo). destruct (LoopFacts.pixel_exists arrows x y z HW Hi) as (a & (_ & Ea)). fold s in Ea. rewrite <- Eo in Ea.
  assert (EC : arrow_coords s o = Some (x, y, z)) by (rewrite Eo; apply arrow_coords_ok; assumption). rewrite EC. cbn [option_bind].
  assert (E2 : fold_opt (arrow_step t se s v (x, y, z) a) (numbered (se_points se)) (out, rest) = Some (out', q')).
  { rewrite points_ok by exact Hi. rewrite <- E. unfold aims. rewrite EC, Ea. reflexivity. }
  destruct (se_points se) as [|p0 ps] eqn:Ep.
  - cbn [option_bind]. unfold numbered in *. cbn [length Z.of_nat] in *. cbn in E2. injection E2 as <- <-. cbn. apply IH; [exact I'|cbn [length] in M; lia].
  - rewrite Ea. cbn [option_bind]. rewrite E2. cbn [option_bind fst snd]. apply IH; [exact I'|cbn [length] in M; lia].
Qed.

Lemma arrowPropagate_ok fuel out v x0 y0 z0 : wf_img out -> sz out = s -> inside s x0 y0 z0 -> (length (pixs out) < fuel)%nat ->
  exists res, arrowPropagate fuel t se arrows out v (voxel_offset (dw s) (dh s) x0 y0 z0) = Some (Some res) /\ propagated t se arrows out v x0 y0 z0 res.
Proof using Hu HW Hs HP HL.
  intros Wo So Hi Hf. set (o0 := voxel_offset (dw s) (dh s) x0 y0 z0). pose proof (inside_range _ _ _ _ Hi) as R0. fold o0 in R0.
  assert (L0 : length (pixs out) = length (pixs arrows)) by (apply Nat2Z.inj; destruct Wo as (_ & ->), HW as (_ & ->); rewrite So; reflexivity).
  assert (N : Z.of_nat (length (pixs out)) = dw s * dh s * dd s) by (rewrite L0; apply HW).
  destruct (arrow_loop_ok v (pixs out) o0 L0 ltac:(lia) fuel (pixs out) [o0]) as (px & E & I); [apply sinv_first|cbn [length]; pose proof (others_le v (pixs out)); lia|].
  exists (Img (sz out) px). unfold arrowPropagate. fold s. rewrite E. cbn [fuel_bind]. split; [reflexivity|].
  pose proof (sinv_done _ _ _ _ _ I) as D.
  split; [reflexivity|]. split; [split; [apply Wo|cbn [sz pixs]; rewrite (proj1 I); apply Wo]|].
  assert (T1 : forall x y z, reached t se arrows out v x0 y0 z0 x y z -> spread v (pixs out) o0 aims (voxel_offset (dw s) (dh s) x y z)).
  { intros x y z H. induction H as [x y z o Ld Po Nv|x y z x' y' z' o Hr IH Ld Po Nv].
    - destruct Po as (_ & Po). rewrite So in Po. apply spread_first with o; [|exact Po|exact Nv]. apply aims_spec; [exact Hi|]. exists x, y, z. auto.
    - destruct Po as (_ & Po). rewrite So in Po. apply spread_next with (voxel_offset (dw s) (dh s) x' y' z') o; [exact IH| |exact Po|exact Nv].
      apply aims_spec; [|exists x, y, z; auto]. destruct Ld as (n & p & a & _ & _ & (Q & _) & _). exact Q. }
  assert (T2 : forall o, spread v (pixs out) o0 aims o -> exists x y z, inside s x y z /\ o = voxel_offset (dw s) (dh s) x y z /\ reached t se arrows out v x0 y0 z0 x y z).
  { intros o H. induction H as [o u Io Eo Nv|o' o u Hr (x' & y' & z' & I' & E' & R') Io Eo Nv].
    - apply aims_spec in Io; [|exact Hi]. destruct Io as (x & y & z & Ld & ->). assert (I1 : inside s x y z) by (destruct Ld as (n & p & a & _ & _ & _ & _ & _ & _ & _ & Q); exact Q).
      exists x, y, z. split; [exact I1|]. split; [reflexivity|]. apply reached_first with u; [exact Ld| |exact Nv]. split; rewrite So; assumption.
    - rewrite E' in Io. apply aims_spec in Io; [|exact I']. destruct Io as (x & y & z & Ld & ->). assert (I1 : inside s x y z) by (destruct Ld as (n & p & a & _ & _ & _ & _ & _ & _ & _ & Q); exact Q).
      exists x, y, z. split; [exact I1|]. split; [reflexivity|]. apply reached_next with x' y' z' u; [exact R'|exact Ld| |exact Nv]. split; rewrite So; assumption. }
  intros x y z o (Ii & Po). rewrite So in Ii, Po. destruct (D (voxel_offset (dw s) (dh s) x y z)) as [(Sp & Rv)|(Ns & Rv)].
  - left. split; [|split; cbn [sz pixs]; rewrite So; assumption]. destruct (T2 _ Sp) as (x' & y' & z' & I' & E' & R'). destruct (LoopFacts.voxel_inj s _ _ _ _ _ _ Ii I' E') as (-> & -> & ->). exact R'.
  - right. split; [intros H; apply Ns, T1, H|]. split; cbn [sz pixs]; rewrite So; [exact Ii|]. rewrite Rv. exact Po.
Qed.
End Propagate.
