From Verif Require Export Proofs.HitOrMissProofs.

(** ** Hit-or-miss by a list *)
Section HomList.
Context (t : ity) (junk : Z -> Z) (bv : Z) (cs : nat -> nat -> nat -> conf) (im : img) (Gi : good_img im) (Ti : typed_img t im) (HL : forall i j k, legal_conf (dh (sz im)) (cs i j k)).

Lemma hits_step l c out H : hits_any t bv l im out -> hit_by t bv c im H -> hits_any t bv (l ++ [c]) im (pw2 px_sup out H).
Proof.
  intros (So & Wo & HO) HH. pose proof (proj1 Gi) as W. destruct (hit_shape _ _ _ _ _ W HH) as (SH & WH). split; [exact So|]. split; [apply pw2_wf; [assumption..|congruence]|].
  intros x y z v Hv. assert (Hi : inside (sz im) x y z) by (rewrite <- So; exact (proj1 Hv)). destruct (pixel_exists out x y z Wo) as (o & Ho); [rewrite So; exact Hi|].
  destruct (pixel_exists H x y z WH) as (h & Hh); [rewrite SH; exact Hi|].
  assert (v = Z.max o h) as -> by (rewrite <- px_sup_max; eapply pixel_is_fun; [exact Hv|apply pw2_is; [exact Ho|exact Hh|congruence]]).
  destruct (HO _ _ _ _ Ho) as (G1 & G2). split.
  - destruct (Z.max_spec o h) as [(_ & ->)|(_ & ->)].
    + right. exists c, H. split; [apply in_or_app; right; left; reflexivity|auto].
    + destruct G1 as [G1|(c' & H' & Hin & G1)]; [left; exact G1|]. right. exists c', H'. split; [apply in_or_app; left; exact Hin|exact G1].
  - intros u [->|(c' & H' & Hin & HH' & Hu)]; [specialize (G2 (tmin t) (or_introl eq_refl)); lia|]. apply in_app_or in Hin as [Hin|[->|[]]].
    + assert (u <= o) by (apply G2; right; eauto). lia.
    + assert (H' = H) by exact (hit_fun t bv c' im H' H W HH' HH). subst H'. rewrite (pixel_is_fun _ _ _ _ _ _ Hu Hh). lia.
Qed.

Lemma hom_list_ok l : forall k l0 tmp out, Forall (good_comp (sz im)) l -> wf_img tmp -> sz tmp = sz im -> hits_any t bv l0 im out ->
  exists R, hom_list t junk cs bv k l im tmp out = Some (1, R) /\ hits_any t bv (l0 ++ l) im R.
Proof.
  induction l as [|(fg, bg) l IH]; intros k l0 tmp out Hl Wt St HO; cbn [hom_list].
  { exists out. split; [reflexivity|]. rewrite app_nil_r. exact HO. }
  apply Forall_cons_iff in Hl as ((Gf & Gb) & Hl). destruct (hitOrMiss_ok t junk (cs k) bv fg bg im tmp) as (H & E & HH); auto. rewrite E. cbn [option_bind fst snd Z.eqb negb Pos.eqb].
  destruct (hit_shape _ _ _ _ _ (proj1 Gi) HH) as (SH & WH). destruct (IH (S k) (l0 ++ [(fg, bg)]) H (pw2 px_sup out H) Hl WH SH) as (R & ER & HR); [apply hits_step; assumption|].
  exists R. split; [exact ER|]. rewrite <- app_assoc in HR. exact HR.
Qed.

Lemma hitOrMiss_list_ok l out : Forall (good_comp (sz im)) l -> wf_img out -> sz out = sz im ->
  exists R, hitOrMiss_list t junk cs bv l false im out = Some (1, R) /\ hits_any t bv l im R.
Proof.
  intros Hl Wo So. unfold hitOrMiss_list. rewrite same_size_true by congruence. cbn [negb]. apply (hom_list_ok l 0 []); auto; [apply wf_junk; apply Gi|].
  destruct (pw1_spec (fun _ => tmin t) out Wo) as (S1 & W1 & H1). split; [congruence|]. split; [exact W1|]. intros x y z v Hv. destruct (pixel_exists out x y z Wo) as (o & Ho); [rewrite <- S1; apply Hv|].
  rewrite (pixel_is_fun _ _ _ _ _ _ Hv (H1 _ _ _ _ Ho)). split; [left; reflexivity|]. intros u [->|(c & H & [] & _)]. lia.
Qed.

Lemma hits_binary l out : binary t im -> bv = tmin t -> Forall (fun c => se_size (fst c) = 1 /\ se_size (snd c) = 1) l -> (forall c, In c l -> exists H, hit_by t bv c im H) ->
  hits_any t bv l im out -> drawn t (fun x y z => exists c, In c l /\ matches t c im x y z) (sz im) out.
Proof.
  intros B -> HS HE (So & Wo & HO). split; [exact So|]. split; [exact Wo|]. intros x y z Hi. destruct (pixel_exists out x y z Wo) as (v & Hv); [rewrite So; exact Hi|]. pose proof (tmin_lt_tmax t) as Lt.
  destruct (HO _ _ _ _ Hv) as (G1 & G2). pose proof (proj1 (Forall_forall _ _) HS) as HS'.
  assert (K : forall c H, In c l -> hit_by t (tmin t) c im H -> (matches t c im x y z /\ pixel_is H x y z (tmax t)) \/ (~ matches t c im x y z /\ pixel_is H x y z (tmin t))).
  { intros c H Hc HH. destruct (HS' c Hc). destruct (hit_binary t c im H (proj1 Gi) B) as (_ & _ & D); auto. }
  assert (N : v = tmin t -> ~ exists c, In c l /\ matches t c im x y z).
  { intros -> (c & Hc & M). destruct (HE c Hc) as (H & HH). destruct (K c H Hc HH) as [(_ & P)|(P & _)]; [|tauto]. assert (tmax t <= tmin t) by (apply G2; right; eauto). lia. }
  destruct G1 as [->|(c & H & Hc & HH & Hu)]; [right; auto|]. destruct (K c H Hc HH) as [(M & P)|(M & P)]; pose proof (pixel_is_fun _ _ _ _ _ _ Hu P); subst v; [left; eauto|right; auto].
Qed.
End HomList.

(** ** Rotations *)
Lemma near_In odd p : near odd p <-> In p (if odd then firstn 7 SE_HexIndices else firstn 9 SE_SquIndices).
Proof.
  destruct p as ((x, y), z). unfold near. cbn [px_ py_ pz_ fst snd]. split.
  - intros (-> & Hy & Hx). assert (Ey : y = -1 \/ y = 0 \/ y = 1) by lia. destruct odd.
    + destruct Ey as [->|[->| ->]]; cbn in Hx; assert (Ex : x = -1 \/ x = 0 \/ x = 1) by lia; destruct Ex as [->|[->| ->]]; try lia; cbn; tauto.
    + assert (Ex : x = -1 \/ x = 0 \/ x = 1) by lia. destruct Ey as [->|[->| ->]], Ex as [->|[->| ->]]; cbn; tauto.
  - destruct odd; cbn; intros H; repeat (destruct H as [H|H]; [injection H as <- <- <-; cbn; lia|]); destruct H.
Qed.

Definition point_eq_dec (p q : point) : {p = q} + {p <> q}.
Proof. repeat decide equality. Defined.
Definition circle (odd : bool) : Z := if odd then 6 else 8.
Local Definition table (odd : bool) := if odd then firstn 7 SE_HexIndices else firstn 9 SE_SquIndices.

(** The statement for less than a whole turn is checked on the points of the table. *)
Lemma rotate_small odd : forallb (fun p => forallb (fun k => match rotatePoint p k odd with Some q => if point_eq_dec q (Nat.iter (Z.to_nat k) (turn odd) p) then true else false | None => false end) (zseq (circle odd))
    && if point_eq_dec (Nat.iter (Z.to_nat (circle odd)) (turn odd) p) p then true else false) (table odd) = true.
Proof. destruct odd; vm_compute; reflexivity. Qed.

Lemma turn_near odd : forallb (fun p => existsb (fun q => if point_eq_dec (turn odd p) q then true else false) (table odd)) (table odd) = true.
Proof. destruct odd; vm_compute; reflexivity. Qed.

Lemma near_turn odd p : near odd p -> near odd (turn odd p).
Proof.
  intros H. apply near_In in H. pose proof (proj1 (forallb_forall _ _) (turn_near odd) p H) as E. apply existsb_exists in E as (q & Hq & E). apply near_In.
  destruct (point_eq_dec (turn odd p) q) as [->|]; [exact Hq|discriminate].
Qed.
Lemma near_iter odd p k : near odd p -> near odd (Nat.iter k (turn odd) p).
Proof. intros H. induction k as [|k IH]; cbn; [exact H|apply near_turn; exact IH]. Qed.

Lemma circle_id odd p : near odd p -> Nat.iter (Z.to_nat (circle odd)) (turn odd) p = p.
Proof.
  intros H. apply near_In in H. pose proof (proj1 (forallb_forall _ _) (rotate_small odd) p H) as E. apply andb_prop in E as (_ & E).
  destruct (point_eq_dec _ p) as [->|]; [reflexivity|discriminate].
Qed.
Lemma iter_add {A} (f : A -> A) m n a : Nat.iter (m + n) f a = Nat.iter m f (Nat.iter n f a).
Proof. induction m as [|m IH]; [reflexivity|]. cbn. f_equal. exact IH. Qed.
Lemma circles_id odd p n : near odd p -> Nat.iter (n * Z.to_nat (circle odd)) (turn odd) p = p.
Proof. intros H. induction n as [|n IH]; [reflexivity|]. cbn [Nat.mul]. rewrite iter_add, IH. apply circle_id. exact H. Qed.

Lemma rotate_near odd p k : near odd p -> 0 <= k -> rotatePoint p k odd = Some (Nat.iter (Z.to_nat k) (turn odd) p).
Proof.
  intros H Hk. assert (Hc : 0 < circle odd) by (destruct odd; cbn; lia).
  assert (rotatePoint p k odd = rotatePoint p (k mod circle odd) odd) as ->.
  { unfold rotatePoint. destruct (Z.eqb_spec (getSEPointIndice p odd) 0) as [|N]; [reflexivity|]. f_equal. f_equal.
    assert (1 <= getSEPointIndice p odd).
    { pose proof (proj1 (near_In odd p) H) as HI. destruct odd; cbn in HI; repeat (destruct HI as [<-|HI]; [cbn in N |- *; lia|]); destruct HI. }
    change (if odd then 6 else 8) with (circle odd). pose proof (Z.mod_pos_bound k (circle odd) Hc). rewrite !Z.rem_mod_nonneg by lia. symmetry. apply Zplus_mod_idemp_r. }
  assert (Nat.iter (Z.to_nat k) (turn odd) p = Nat.iter (Z.to_nat (k mod circle odd)) (turn odd) p) as ->.
  { pose proof (Z.mod_pos_bound k (circle odd) Hc). assert (0 <= k / circle odd) by (apply Z.div_pos; lia). pose proof (Z.div_mod k (circle odd) ltac:(lia)).
    replace (Z.to_nat k) with (Z.to_nat (k mod circle odd) + Z.to_nat (k / circle odd) * Z.to_nat (circle odd))%nat.
    - rewrite iter_add, circles_id by exact H. reflexivity.
    - rewrite <- Z2Nat.inj_mul, <- Z2Nat.inj_add by nia. f_equal. lia. }
  pose proof (Z.mod_pos_bound k (circle odd) Hc) as Hb. pose proof (proj1 (near_In odd p) H) as HI. pose proof (proj1 (forallb_forall _ _) (rotate_small odd) p HI) as E. apply andb_prop in E as (E & _).
  pose proof (proj1 (forallb_forall _ _) E (k mod circle odd)) as E'. rewrite zseq_In in E'. specialize (E' Hb).
  destruct (rotatePoint p (k mod circle odd) odd) as [q|]; [|discriminate]. destruct (point_eq_dec q _) as [->|]; [reflexivity|discriminate].
Qed.

Lemma all_opt_map {A B} (f : A -> option B) (g : A -> B) l : (forall a, In a l -> f a = Some (g a)) -> all_opt f l = Some (map g l).
Proof. induction l as [|a l IH]; intros H; cbn; [reflexivity|]. rewrite (H a (or_introl eq_refl)). cbn. rewrite IH; [reflexivity|]. intros; apply H; right; assumption. Qed.

Definition near_se (se : strelt) : Prop := Forall (near (se_odd se)) (se_points se).

Lemma rotate_ok c k : near_se (fst c) -> near_se (snd c) -> se_odd (snd c) = se_odd (fst c) -> 0 <= k ->
  rotate k c = Some (turned (Z.to_nat k) (fst c), turned (Z.to_nat k) (snd c)).
Proof.
  intros N1 N2 E Hk. unfold rotate, rotate_points. unfold near_se in *. rewrite Forall_forall in N1, N2.
  rewrite (all_opt_map _ (Nat.iter (Z.to_nat k) (turn (se_odd (fst c))))) by (intros p Hp; apply rotate_near; [apply N1; exact Hp|exact Hk]). cbn [option_bind].
  rewrite (all_opt_map _ (Nat.iter (Z.to_nat k) (turn (se_odd (fst c))))) by (intros p Hp; apply rotate_near; [rewrite <- E; apply N2; exact Hp|exact Hk]). cbn [option_bind].
  unfold turned. rewrite E. reflexivity.
Qed.
Lemma turned_near k se : near_se se -> near_se (turned k se).
Proof. intros H. unfold near_se, turned in *. cbn. apply Forall_map. eapply Forall_impl; [|exact H]. intros p Hp. apply near_iter. exact Hp. Qed.
Lemma turned_add m n se : turned m (turned n se) = turned (m + n) se.
Proof. unfold turned. cbn. f_equal. rewrite map_map. apply map_ext. intros p. symmetry. apply iter_add. Qed.
Lemma turned_0 se : turned 0 se = se.
Proof. destruct se. unfold turned. cbn. f_equal. apply map_id. Qed.

Lemma add_rotations_ok n k : forall c, near_se (fst c) -> near_se (snd c) -> se_odd (snd c) = se_odd (fst c) -> 0 <= k ->
  add_rotations n k c = Some (map (fun i => (turned (i * Z.to_nat k) (fst c), turned (i * Z.to_nat k) (snd c))) (seq 1 n)).
Proof.
  induction n as [|n IH]; intros c N1 N2 E Hk; cbn [add_rotations]; [reflexivity|]. rewrite (rotate_ok c k N1 N2 E Hk). cbn [option_bind].
  rewrite IH; cbn [fst snd]; [|apply turned_near; assumption|apply turned_near; assumption|exact E|exact Hk]. cbn [option_bind seq map]. rewrite Nat.mul_1_l. do 2 f_equal.
  rewrite <- (seq_shift n 1), map_map. apply map_ext. intros i. rewrite !turned_add. do 2 f_equal; lia.
Qed.

Lemma add_nrot_ok l fg bg n : near_se fg -> near_se bg -> se_odd bg = se_odd fg -> 0 < n ->
  add_nrot l fg bg n = Some (l ++ map (fun i => (turned (i * Z.to_nat (circle (se_odd fg) / n)) fg, turned (i * Z.to_nat (circle (se_odd fg) / n)) bg)) (seq 0 (Z.to_nat n))).
Proof.
  intros N1 N2 E Hn. unfold add_nrot. destruct (Z.eqb_spec n 0) as [|_]; [lia|]. change (if se_odd fg then 6 else 8) with (circle (se_odd fg)).
  assert (0 <= circle (se_odd fg)) by (destruct (se_odd fg); cbn; lia). rewrite Z.quot_div_nonneg by lia.
  rewrite add_rotations_ok; [|exact N1|exact N2|exact E|apply Z.div_pos; lia]. cbn [option_bind fst snd].
  replace (Z.to_nat n) with (S (Z.to_nat (n - 1))) by lia. cbn [seq map]. rewrite !turned_0. reflexivity.
Qed.

(** A whole number of circles. *)
Lemma turned_circles m se : near_se se -> turned (m * Z.to_nat (circle (se_odd se))) se = se.
Proof.
  intros H. destruct se as [o ty n pts]. unfold turned, near_se in *. cbn [se_odd se_type se_size se_points] in *. f_equal. rewrite <- (map_id pts) at 2. apply map_ext_in. intros p Hp. apply circles_id.
  exact (proj1 (Forall_forall _ _) H p Hp).
Qed.
