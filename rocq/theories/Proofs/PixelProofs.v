From Verif Require Import Spec.PixelSpec Proofs.ExecFacts.
From Coq Require Import String List.
Import ListNotations.
Open Scope list_scope. Open Scope Z_scope.

(** Bridge: an execution of pixel function [f] satisfies relation [R] when [f] does on typed values. *)
Lemma exec_spec (f : list Z -> Z) (R : list Z -> Z -> Prop) srcs out sched h :
  ready h srcs out sched ->
  (forall vs k, 0 <= k < dw (idims out) * dh (idims out) * dd (idims out) ->
     Forall2 (fun o v => operand_value h o k v) srcs vs -> R vs (f vs)) ->
  exists h', exec_pixelwise f srcs out sched h = Some h' /\ pixelwise_result R srcs out h h'.
Proof.
  intros (HP & HF & HS) HR. rewrite Forall_forall in HF.
  destruct (exec_pixelwise_correct f srcs out sched h HP HF HS) as (h' & HE & HL & HV & HO).
  exists h'. split; [exact HE|]. split; [exact HL|]. split; [|exact HO].
  intros k Hk. destruct (HV k Hk) as (vs & v & H1 & H2 & ->). exists vs, (f vs). eauto.
Qed.

Lemma exec_un (f : Z -> Z) (P : Z -> Z -> Prop) t a out sched h :
  ready h [a] out sched -> typed t h out a -> (forall x, inty t x -> P x (f x)) ->
  exists h', exec_pixelwise (un f) [a] out sched h = Some h' /\ pixelwise_result (R1 P) [a] out h h'.
Proof.
  intros HR HT HP. apply exec_spec; [exact HR|]. intros vs k Hk HF.
  inversion HF as [|? x ? l Hx HF1]; subst. inversion HF1; subst. cbn. apply HP. apply (HT k); auto.
Qed.

Lemma exec_bin (f : Z -> Z -> Z) (P : Z -> Z -> Z -> Prop) t a b out sched h :
  ready h [a; b] out sched -> typed t h out a -> typed t h out b ->
  (forall x y, inty t x -> inty t y -> P x y (f x y)) ->
  exists h', exec_pixelwise (bin f) [a; b] out sched h = Some h' /\ pixelwise_result (R2 P) [a; b] out h h'.
Proof.
  intros HR HTa HTb HP. apply exec_spec; [exact HR|]. intros vs k Hk HF.
  inversion HF as [|? x ? l Hx HF1]; subst. inversion HF1 as [|? y ? l' Hy HF2]; subst.
  inversion HF2; subst. cbn. apply HP; [apply (HTa k)|apply (HTb k)]; auto.
Qed.

Lemma exec_bin_any (f : Z -> Z -> Z) (P : Z -> Z -> Z -> Prop) a b out sched h :
  ready h [a; b] out sched -> (forall x y, P x y (f x y)) ->
  exists h', exec_pixelwise (bin f) [a; b] out sched h = Some h' /\ pixelwise_result (R2 P) [a; b] out h h'.
Proof.
  intros HR HP. apply exec_spec; [exact HR|]. intros vs k Hk HF.
  inversion HF as [|? x ? l Hx HF1]; subst. inversion HF1 as [|? y ? l' Hy HF2]; subst.
  inversion HF2; subst. cbn. apply HP.
Qed.

Lemma exec_ter_any (f : Z -> Z -> Z -> Z) (P : Z -> Z -> Z -> Z -> Prop) a b c out sched h :
  ready h [a; b; c] out sched -> (forall x y z, P x y z (f x y z)) ->
  exists h', exec_pixelwise (ter f) [a; b; c] out sched h = Some h' /\ pixelwise_result (R3 P) [a; b; c] out h h'.
Proof.
  intros HR HP. apply exec_spec; [exact HR|]. intros vs k Hk HF.
  inversion HF as [|? x ? l Hx HF1]; subst. inversion HF1 as [|? y ? l' Hy HF2]; subst.
  inversion HF2 as [|? z ? l'' Hz HF3]; subst. inversion HF3; subst. cbn. apply HP.
Qed.

Lemma exec_un_any (f : Z -> Z) (P : Z -> Z -> Prop) a out sched h :
  ready h [a] out sched -> (forall x, P x (f x)) ->
  exists h', exec_pixelwise (un f) [a] out sched h = Some h' /\ pixelwise_result (R1 P) [a] out h h'.
Proof.
  intros HR HP. apply exec_spec; [exact HR|]. intros vs k Hk HF.
  inversion HF as [|? x ? l Hx HF1]; subst. inversion HF1; subst. cbn. apply HP.
Qed.

(** Pixel facts *)
Ltac ty t := destruct t; cbn [is_signed nbits] in *; try discriminate.

Lemma px_add_unsigned t x y : is_signed t = false -> inty t x -> inty t y ->
  px_add t x y = Z.min (tmax t) (x + y).
Proof.
  unfold px_add, inty. intros HU Hx Hy.
  assert (inty t (tmax t - y)) by (unfold inty, tmin in *; rewrite HU in *; lia).
  rewrite (wrap_id t (tmax t - y)) by assumption.
  destruct (x >? tmax t - y) eqn:E; [lia|]. rewrite wrap_id; [lia|]. unfold inty, tmin in *. rewrite HU in *. lia.
Qed.

Lemma px_sub_unsigned t x y : is_signed t = false -> inty t x -> inty t y ->
  px_sub t x y = Z.max (tmin t) (x - y).
Proof.
  unfold px_sub, inty. intros HU Hx Hy.
  assert (Hm : tmin t = 0) by (unfold tmin; rewrite HU; reflexivity). rewrite Hm in *.
  rewrite (wrap_id t (0 + y)) by (unfold inty; lia).
  destruct (x <? 0 + y) eqn:E; [lia|]. rewrite wrap_id; [lia|]. unfold inty. lia.
Qed.

Lemma px_add_nonneg t x y : inty t x -> inty t y -> 0 <= y -> px_add t x y = Z.min (tmax t) (x + y).
Proof.
  unfold px_add, inty. intros Hx Hy Hn. pose proof (tmin_le0 t).
  rewrite (wrap_id t (tmax t - y)) by (unfold inty; lia).
  destruct (x >? tmax t - y) eqn:E; [lia|]. rewrite wrap_id; [lia|]. unfold inty. lia.
Qed.

Lemma px_sub_nonneg t x y : inty t x -> inty t y -> 0 <= y -> px_sub t x y = Z.max (tmin t) (x - y).
Proof.
  unfold px_sub, inty. intros Hx Hy Hn. pose proof (tmin_le0 t). pose proof (tmax_pos t).
  rewrite (wrap_id t (tmin t + y)) by (unfold inty; lia).
  destruct (x <? tmin t + y) eqn:E; [lia|]. rewrite wrap_id; [lia|]. unfold inty. lia.
Qed.

Lemma wrap_over t z : tmax t < z <= tmax t + 2 ^ nbits t -> wrap t z = z - 2 ^ nbits t.
Proof.
  intros H. destruct (wrap_mod t z) as [k Hk]. pose proof (wrap_range t z) as Hr. rewrite Hk in *.
  unfold inty in *.
  assert (C : tmax t - tmin t + 1 = 2 ^ nbits t) by (destruct t; reflexivity).
  assert (C2 : 0 < 2 ^ nbits t) by (destruct t; reflexivity).
  generalize dependent (2 ^ nbits t). intros M. intros.
  assert (~ 0 <= k) by (intros K; pose proof (Z.mul_le_mono_nonneg_r 0 k M); lia).
  assert (~ k <= -2) by (intros K; pose proof (Z.mul_le_mono_nonneg_r k (-2) M); lia). assert (k = -1) by lia. subst. lia.
Qed.

Lemma wrap_under t z : tmin t - 2 ^ nbits t <= z < tmin t -> wrap t z = z + 2 ^ nbits t.
Proof.
  intros H. destruct (wrap_mod t z) as [k Hk]. pose proof (wrap_range t z) as Hr. rewrite Hk in *.
  unfold inty in *.
  assert (C : tmax t - tmin t + 1 = 2 ^ nbits t) by (destruct t; reflexivity).
  assert (C2 : 0 < 2 ^ nbits t) by (destruct t; reflexivity).
  generalize dependent (2 ^ nbits t). intros M. intros.
  assert (~ 2 <= k) by (intros K; pose proof (Z.mul_le_mono_nonneg_r 2 k M); lia).
  assert (~ k <= 0) by (intros K; pose proof (Z.mul_le_mono_nonneg_r k 0 M); lia). assert (k = 1) by lia. subst. lia.
Qed.

Lemma px_add_neg_wrong t x y : inty t x -> inty t y -> y < 0 ->
  px_add t x y <> Z.max (tmin t) (Z.min (tmax t) (x + y)).
Proof.
  unfold px_add, inty. intros Hx Hy Hn. pose proof (tmax_pos t) as TP.
  assert (C : tmax t - tmin t + 1 = 2 ^ nbits t) by (destruct t; reflexivity).
  rewrite (wrap_over t (tmax t - y)) by lia.
  destruct (x >? tmax t - y - 2 ^ nbits t) eqn:E; [lia|].
  rewrite (wrap_under t (x + y)) by lia. lia.
Qed.

Lemma px_sub_neg_wrong t x y : inty t x -> inty t y -> y < 0 ->
  px_sub t x y <> Z.max (tmin t) (Z.min (tmax t) (x - y)).
Proof.
  unfold px_sub, inty. intros Hx Hy Hn. pose proof (tmax_pos t) as TP.
  assert (C : tmax t - tmin t + 1 = 2 ^ nbits t) by (destruct t; reflexivity).
  rewrite (wrap_under t (tmin t + y)) by lia.
  destruct (x <? tmin t + y + 2 ^ nbits t) eqn:E; [lia|].
  rewrite (wrap_over t (x - y)) by lia. lia.
Qed.

Lemma wrap_wraps t z : wraps_to t z (wrap t z).
Proof. split; [apply wrap_range|]. destruct (wrap_mod t z) as [k Hk]. exists k. exact Hk. Qed.

Lemma px_mul_unsigned t x y : is_signed t = false -> inty t x -> inty t y ->
  px_mul t x y = Z.min (tmax t) (x * y).
Proof.
  unfold px_mul, inty. intros HU Hx Hy.
  assert (Hm : tmin t = 0) by (unfold tmin; rewrite HU; reflexivity). rewrite Hm in *.
  destruct (x * y >? tmax t) eqn:E; [lia|]. rewrite wrap_id; [lia|]. unfold inty. nia.
Qed.

Lemma px_div_unsigned t x y : is_signed t = false -> inty t x -> inty t y ->
  (y = 0 -> px_div t x y = tmax t) /\ (y <> 0 -> px_div t x y = x / y).
Proof.
  unfold px_div, inty. intros HU Hx Hy.
  assert (Hm : tmin t = 0) by (unfold tmin; rewrite HU; reflexivity). rewrite Hm in *.
  split; intros H.
  - subst. reflexivity.
  - replace (y =? 0) with false by lia. rewrite Z.quot_div_nonneg by lia.
    apply wrap_id. unfold inty. rewrite Hm. split; [apply Z.div_pos; lia|].
    apply Z.div_le_upper_bound; nia.
Qed.

Lemma px_absDiff_unsigned t x y : is_signed t = false -> inty t x -> inty t y ->
  px_absDiff t x y = Z.abs (x - y).
Proof.
  unfold px_absDiff, inty. intros HU Hx Hy.
  assert (Hm : tmin t = 0) by (unfold tmin; rewrite HU; reflexivity). rewrite Hm in *.
  destruct (x >? y) eqn:E; rewrite wrap_id by (unfold inty; lia); lia.
Qed.

Lemma px_inv_eq t x : inty t x -> px_inv t x = tmax t + tmin t - x.
Proof.
  unfold px_inv, inty. intros Hx.
  assert (C : tmax t - tmin t + 1 = 2 ^ nbits t) by (destruct t; reflexivity).
  destruct (is_signed t) eqn:HS.
  - assert (Hs : tmax t + tmin t = -1) by (ty t; reflexivity).
    rewrite wrap_over by lia. lia.
  - assert (Hm : tmin t = 0) by (unfold tmin; rewrite HS; reflexivity). rewrite Hm in *.
    rewrite wrap_id; [lia|]. unfold inty. lia.
Qed.

Lemma compare_fun_rel t op :
  match compare_fun t op, rel_of op with
  | Some f, Some r => forall a b, (r a b -> f a b = tmax t) /\ (~ r a b -> f a b = 0)
  | None, None => True
  | _, _ => False
  end.
Proof.
  unfold compare_fun, rel_of.
  repeat match goal with |- context [String.eqb op ?s] => destruct (String.eqb op s) end;
  try exact I; intros a b; unfold px_equ, px_diff, px_grt, px_low, px_grtOrEqu, px_lowOrEqu;
  match goal with |- context [if ?c then _ else _] => destruct c eqn:E end; split; intros; lia.
Qed.

Lemma exec_pixelwise_ready f srcs out sched h : ready h srcs out sched ->
  exists h', exec_pixelwise f srcs out sched h = Some h' /\
    pixelwise_result (fun vs v => v = f vs) srcs out h h'.
Proof. intros HR. apply exec_spec; auto. Qed.

Lemma operand_value_fun h o k v1 v2 : operand_value h o k v1 -> operand_value h o k v2 -> v1 = v2.
Proof. destruct o; cbn; intros; congruence. Qed.

Lemma operands_fun h srcs k vs1 vs2 :
  Forall2 (fun o v => operand_value h o k v) srcs vs1 ->
  Forall2 (fun o v => operand_value h o k v) srcs vs2 -> vs1 = vs2.
Proof.
  intros H1. revert vs2. induction H1 as [|o v l l' Hv HF IH]; intros vs2 H2; inversion H2; subst; auto.
  f_equal; [eapply operand_value_fun; eauto|auto].
Qed.

Lemma exec_schedule_independent f srcs out s1 s2 h :
  ready h srcs out s1 -> ready h srcs out s2 ->
  exec_pixelwise f srcs out s1 h = exec_pixelwise f srcs out s2 h.
Proof.
  intros H1 H2.
  destruct (exec_pixelwise_ready f _ _ _ _ H1) as (h1 & -> & L1 & V1 & O1).
  destruct (exec_pixelwise_ready f _ _ _ _ H2) as (h2 & -> & L2 & V2 & O2).
  f_equal. apply list_ext_rd; [congruence|]. intros a _.
  assert (D : owns out a \/ ~ owns out a) by (unfold owns; lia).
  destruct D as [D|D]; [|rewrite O1, O2 by assumption; reflexivity].
  unfold owns in D.
  destruct (V1 (a - ibase out)) as (vs & v & F1 & R1' & ->); [lia|].
  destruct (V2 (a - ibase out)) as (vs' & v' & F2 & R2' & ->); [lia|].
  replace (ibase out + (a - ibase out)) with a in * by lia.
  rewrite R1', R2', (operands_fun _ _ _ _ _ F1 F2). reflexivity.
Qed.

Lemma inplace_frame f a b tmp sched h :
  ready h [OImg a; OImg b] b sched ->
  0 <= tmp -> tmp + dw (idims b) <= Z.of_nat (length h) ->
  (forall x, tmp <= x < tmp + dw (idims b) -> ~ owns a x /\ ~ owns b x) ->
  exists h', exec_binary_inplace f a b tmp sched h = Some h' /\
    (forall x, owns a x \/ owns b x -> rd h' x = rd h x).
Proof.
  intros (HP & HF & HS) H1 H2 HD.
  inversion HF as [|? ? Ha HF']; subst. cbn in Ha. destruct Ha as (Ha1 & Ha2 & _).
  destruct (exec_inplace_frame f a b tmp sched h) as (h' & HE & HL & HO); auto.
  exists h'. split; [exact HE|]. intros x Hx. apply HO. intros Hc. specialize (HD x Hc). tauto.
Qed.

(** Legality of concrete schedules. *)
Definition sched_okb (sched : list event) : bool :=
  (fix go (seen : list (Z * Z)) (l : list event) :=
     match l with
     | [] => true
     | Ld i p :: r => go ((i, p) :: seen) r
     | St i p :: r => existsb (fun q => (fst q =? i) && (snd q =? p)) seen && go seen r
     end) [] sched.

Lemma sched_okb_spec sched : sched_okb sched = true ->
  forall e1 i p e2, sched = e1 ++ St i p :: e2 -> In (Ld i p) e1.
Proof.
  unfold sched_okb.
  match goal with |- ?go0 [] sched = true -> _ => set (go := go0) end.
  assert (G : forall l seen e1 i p e2, go seen l = true -> l = e1 ++ St i p :: e2 ->
     In (i, p) seen \/ In (Ld i p) e1).
  { induction l as [|e l IH]; intros seen e1 i p e2 Hg He.
    - destruct e1; discriminate.
    - destruct e1 as [|e' e1]; cbn in He; injection He as -> He.
      + cbn in Hg. apply andb_prop in Hg as [Hg _]. apply existsb_exists in Hg as ([i' p'] & H1 & H2).
        cbn in H2. left. assert (i' = i) by lia. assert (p' = p) by lia. subst. exact H1.
      + destruct e' as [i' p'|i' p']; cbn in Hg.
        * destruct (IH _ _ _ _ _ Hg He) as [[E|H]|H]; [|auto|right; right; exact H].
          injection E; intros; subst. right; left; reflexivity.
        * apply andb_prop in Hg as [_ Hg]. destruct (IH _ _ _ _ _ Hg He) as [H|H]; [auto|right; right; exact H]. }
  intros H e1 i p e2 He. destruct (G _ _ _ _ _ _ H He) as [[]|H']. exact H'.
Qed.

Ltac solve_perm :=
  repeat match goal with
  | |- Permutation [] [] => apply perm_nil
  | |- Permutation (?x :: _) ?l =>
      let rec split_at acc l :=
        match l with
        | x :: ?r => constr:((acc, r))
        | ?y :: ?r => split_at constr:(acc ++ [y]) r
        end in
      let s := split_at constr:(@nil event) l in
      match s with (?l1, ?l2) =>
        let l1' := eval cbn in l1 in
        apply (Permutation_cons_app l1' l2 x); cbn [app] end
  end.

Lemma ex_ready :
  let ex_out := IDesc 2 (Dims 2 2 1) in
  let ex_in := IDesc 6 (Dims 2 2 1) in
  let ex_heap := [77; 78; 200; 3; 4; 5; 100; 7; 8; 9; 79] in
  let s1 := [Ld 0 0; St 0 0; Ld 0 1; St 0 1; Ld 1 0; St 1 0; Ld 1 1; St 1 1] in
  let s2 := [Ld 1 0; Ld 1 1; Ld 0 1; St 1 1; St 1 0; St 0 1; Ld 0 0; St 0 0] in
  ready ex_heap [OImg ex_out; OImg ex_in] ex_out s1 /\
  ready ex_heap [OImg ex_out; OImg ex_in] ex_out s2 /\
  api_add UINT8 (OImg ex_out) (OImg ex_in) ex_out s2 ex_heap
    = Some [77; 78; 255; 10; 12; 14; 100; 7; 8; 9; 79].
Proof.
  intros ex_out ex_in ex_heap s1 s2.
  assert (P : placed ex_heap ex_out /\ Forall (operand_ok ex_heap ex_out) [OImg ex_out; OImg ex_in]).
  { subst ex_out ex_in ex_heap. unfold placed, wf_dims. cbn. split; [lia|].
    apply Forall_cons; [|apply Forall_cons; [|apply Forall_nil]];
    unfold operand_ok, placed, wf_dims, same_or_disjoint, owns; cbn.
    - split; [reflexivity|]. split; [|left; reflexivity]. lia.
    - split; [reflexivity|]. split; [lia|]. right; intros; lia. }
  destruct P as [P1 P2].
  split; [|split; [|vm_compute; reflexivity]]; (split; [exact P1|split; [exact P2|]]); split.
  - subst s1. vm_compute. solve_perm.
  - apply sched_okb_spec. reflexivity.
  - subst s2. vm_compute. solve_perm.
  - apply sched_okb_spec. reflexivity.
Qed.

Lemma ex_typed :
  typed UINT8 [77; 78; 200; 3; 4; 5; 100; 7; 8; 9; 79] (IDesc 2 (Dims 2 2 1)) (OImg (IDesc 6 (Dims 2 2 1))).
Proof.
  intros k v Hk Hv. cbn in Hk, Hv.
  assert (D : k = 0 \/ k = 1 \/ k = 2 \/ k = 3) by lia.
  destruct D as [->|[->|[->| ->]]]; cbn in Hv; injection Hv as <-; cbn; lia.
Qed.

Lemma one_pixel_sched : valid_schedule 1 1 [Ld 0 0; St 0 0].
Proof.
  split; [reflexivity|]. apply sched_okb_spec. reflexivity.
Qed.

Lemma inplace_refuted : exists f a b tmp sched h h',
  ready h [OImg a; OImg b] b sched /\
  0 <= tmp /\ tmp + dw (idims b) <= Z.of_nat (length h) /\
  (forall x, tmp <= x < tmp + dw (idims b) -> ~ owns a x /\ ~ owns b x) /\
  exec_binary_inplace f a b tmp sched h = Some h' /\
  ~ pixelwise_result (fun vs v => v = f vs) [OImg a; OImg b] b h h'.
Proof.
  exists (bin Z.add), (IDesc 0 (Dims 1 1 1)), (IDesc 1 (Dims 1 1 1)), 2, [Ld 0 0; St 0 0], [3; 4; 0], [3; 4; 7].
  split; [|split; [|split; [|split; [|split]]]].
  - split; [|split].
    + unfold placed, wf_dims. cbn. lia.
    + apply Forall_cons; [|apply Forall_cons; [|apply Forall_nil]];
      unfold operand_ok, placed, wf_dims, same_or_disjoint, owns; cbn.
      * split; [reflexivity|]. split; [lia|]. right; intros; lia.
      * split; [reflexivity|]. split; [lia|]. left; reflexivity.
    + exact one_pixel_sched.
  - lia.
  - cbn. lia.
  - unfold owns; cbn. lia.
  - reflexivity.
  - intros (_ & HV & _). destruct (HV 0) as (vs & v & HF & HR & ->); [cbn; lia|].
    inversion HF as [|? x ? l Hx HF1]; subst. inversion HF1 as [|? y ? l' Hy HF2]; subst.
    inversion HF2; subst. cbn in *. injection Hx as <-. injection Hy as <-. cbn in HR. discriminate.
Qed.

Lemma mulNoSat_refuted : exists t x y h' out sched,
  inty t x /\ inty t y /\ ready [0] [OVal x; OVal y] out sched /\
  api_mulNoSat t (OVal x) (OVal y) out sched [0] = Some h' /\
  ~ pixelwise_result (R2 (fun x y v => wraps_to t (x * y) v)) [OVal x; OVal y] out [0] h'.
Proof.
  exists UINT8, 16, 17, [255], (IDesc 0 (Dims 1 1 1)), [Ld 0 0; St 0 0].
  split; [unfold inty; cbn; lia|]. split; [unfold inty; cbn; lia|]. split.
  - split; [|split].
    + unfold placed, wf_dims. cbn. lia.
    + repeat constructor.
    + exact one_pixel_sched.
  - split; [reflexivity|]. intros (_ & HV & _). destruct (HV 0) as (vs & v & HF & HR & HW); [cbn; lia|].
    inversion HF as [|? x ? l Hx HF1]; subst. inversion HF1 as [|? y ? l' Hy HF2]; subst.
    inversion HF2; subst. cbn in *. subst. injection HR as <-. destruct HW as (_ & k & Hk). change (2 ^ nbits UINT8) with 256 in Hk. lia.
Qed.

Lemma inv_order t x y : inty t x -> inty t y ->
  inty t (px_inv t x) /\ px_inv t (px_inv t x) = x /\
  px_inv t (tmin t) = tmax t /\ px_inv t (tmax t) = tmin t /\
  (x <= y <-> px_inv t y <= px_inv t x) /\
  px_inv t (px_sup x y) = px_inf (px_inv t x) (px_inv t y) /\
  px_inv t (px_inf x y) = px_sup (px_inv t x) (px_inv t y).
Proof.
  intros Hx Hy.
  assert (Hx' : inty t (px_inv t x)) by apply wrap_range.
  rewrite (px_inv_eq t (tmin t)), (px_inv_eq t (tmax t)) by (apply inty_min || apply inty_max).
  rewrite (px_inv_eq t (px_inv t x)) by assumption.
  rewrite (px_inv_eq t x), (px_inv_eq t y) in * by assumption.
  split; [assumption|]. split; [lia|]. split; [lia|]. split; [lia|]. split; [lia|].
  unfold px_sup, px_inf. split.
  - destruct (x >? y) eqn:E; destruct (_ <? _) eqn:E2; rewrite px_inv_eq by assumption; lia.
  - destruct (x <? y) eqn:E; destruct (_ >? _) eqn:E2; rewrite px_inv_eq by assumption; lia.
Qed.

Lemma inv_involution t a b c sched1 sched2 h :
  ready h [OImg a] b sched1 -> typed t h b (OImg a) ->
  placed h c -> idims c = idims b -> same_or_disjoint b c ->
  valid_schedule (dw (idims c)) (dd (idims c) * dh (idims c)) sched2 ->
  exists h1 h2, api_inv t (OImg a) b sched1 h = Some h1 /\ api_inv t (OImg b) c sched2 h1 = Some h2 /\
    forall k, 0 <= k < dw (idims c) * dh (idims c) * dd (idims c) -> rd h2 (ibase c + k) = rd h (ibase a + k).
Proof.
  intros HR HT HPc Hcb Hsd HS2.
  destruct (exec_un (px_inv t) (fun x v => v = px_inv t x) t (OImg a) b sched1 h HR HT) as (h1 & HE1 & HL1 & HV1 & HO1); [reflexivity|].
  exists h1.
  destruct HR as (HPb & _ & _).
  destruct (exec_un_any (px_inv t) (fun x v => v = px_inv t x) (OImg b) c sched2 h1) as (h2 & HE2 & HL2 & HV2 & HO2).
  { split; [|split; [|exact HS2]].
    - unfold placed in *. rewrite HL1. exact HPc.
    - apply Forall_cons; [|apply Forall_nil]. split; [auto|]. split; [|exact Hsd].
      unfold placed in *. rewrite HL1. exact HPb. }
  { reflexivity. }
  exists h2. split; [exact HE1|]. split; [exact HE2|].
  intros k Hk. rewrite Hcb in Hk.
  destruct (HV1 k Hk) as (vs1 & v1 & F1 & R1' & P1).
  rewrite <- Hcb in Hk. destruct (HV2 k Hk) as (vs2 & v2 & F2 & R2' & P2). rewrite Hcb in Hk.
  inversion F1 as [|? x ? l Hx F1']; subst. inversion F1'; subst.
  inversion F2 as [|? y ? l Hy F2']; subst. inversion F2'; subst. cbn in *.
  rewrite Hx, R2'. rewrite R1' in Hy. injection Hy as <-. subst.
  f_equal. assert (inty t x) by (eapply (HT k); [exact Hk|exact Hx]).
  apply (inv_order t x x); assumption.
Qed.

Lemma comparisons_ok t a b out sched h : ready h [a; b] out sched ->
  let post api (r : Z -> Z -> Prop) := exists h', api t a b out sched h = Some h' /\
    pixelwise_result (R2 (fun x y v => picks (r x y) (tmax t) 0 v)) [a; b] out h h' in
  post api_grt (fun x y => x > y) /\ post api_grtOrEqu (fun x y => x >= y) /\
  post api_low (fun x y => x < y) /\ post api_lowOrEqu (fun x y => x <= y) /\
  post api_equ (fun x y => x = y) /\ post api_diff (fun x y => x <> y).
Proof.
  intros HR post. repeat split; (apply exec_bin_any; [exact HR|]); intros x y;
  unfold px_equ, px_diff, px_grt, px_low, px_grtOrEqu, px_lowOrEqu, picks;
  match goal with |- context [if ?c then _ else _] => destruct c eqn:E end; split; intros; lia.
Qed.

Lemma test_ok c a b out sched h : ready h [c; a; b] out sched ->
  exists h', api_test c a b out sched h = Some h' /\
    pixelwise_result (R3 (fun x y z v => picks (x <> 0) y z v)) [c; a; b] out h h'.
Proof.
  intros HR. apply exec_ter_any; [exact HR|]. intros x y z. unfold px_test, nz, picks.
  destruct (x =? 0) eqn:E; cbn; split; intros; lia.
Qed.

Lemma mask_ok imIn imMask out sched h : ready h [imMask; imIn; OVal 0] out sched ->
  exists h', api_mask imIn imMask out sched h = Some h' /\
    pixelwise_result (R3 (fun m x _ v => picks (m <> 0) x 0 v)) [imMask; imIn; OVal 0] out h h'.
Proof.
  intros HR. destruct (test_ok _ _ _ _ _ _ HR) as (h' & HE & HL & HV & HO).
  exists h'. split; [exact HE|]. split; [exact HL|]. split; [|exact HO].
  intros k Hk. destruct (HV k Hk) as (vs & v & F & R & P). exists vs, v. split; [exact F|]. split; [exact R|].
  inversion F as [|? x ? l Hx F1]; subst. inversion F1 as [|? y ? l' Hy F2]; subst.
  inversion F2 as [|? z ? l'' Hz F3]; subst. inversion F3; subst. cbn in *. subst. exact P.
Qed.

Lemma compare_unknown t op imIn iv tv fv out tmp sched1 sched2 h :
  rel_of op = None -> api_compare t op imIn iv tv fv out tmp sched1 sched2 h = Some (-100, h).
Proof.
  intros HN. unfold api_compare. pose proof (compare_fun_rel t op) as H. rewrite HN in H.
  destruct (compare_fun t op); [tauto|reflexivity].
Qed.

Lemma operand_value_frame h h1 tmp o out k v :
  operand_ok h out o -> 0 <= k < dw (idims out) * dh (idims out) * dd (idims out) ->
  (forall d, o = OImg d -> forall a, owns tmp a -> ~ owns d a) ->
  (forall a, ~ owns tmp a -> rd h1 a = rd h a) ->
  operand_value h1 o k v -> operand_value h o k v.
Proof.
  intros Ho Hk HD HF HV. destruct o as [d|c]; cbn in *; [|exact HV].
  rewrite <- HF; [exact HV|]. intros Ht. apply (HD d eq_refl _ Ht).
  destruct Ho as (E & _). unfold owns. rewrite E. lia.
Qed.

Lemma compare_ok t op r imIn iv tv fv out tmp sched1 sched2 h :
  rel_of op = Some r ->
  ready h [OImg imIn; iv] tmp sched1 -> ready h [OImg tmp; tv; fv] out sched2 ->
  (forall a, owns tmp a -> ~ owns out a) ->
  (forall d, In (OImg d) [OImg imIn; iv; tv; fv] -> forall a, owns tmp a -> ~ owns d a) ->
  exists h', api_compare t op imIn iv tv fv out tmp sched1 sched2 h = Some (1, h') /\
    length h' = length h /\
    (forall a, ~ owns out a -> ~ owns tmp a -> rd h' a = rd h a) /\
    (forall k, 0 <= k < dw (idims out) * dh (idims out) * dd (idims out) ->
       exists x y a b v, operand_value h (OImg imIn) k x /\ operand_value h iv k y /\
         operand_value h tv k a /\ operand_value h fv k b /\
         rd h' (ibase out + k) = Some v /\ picks (r x y) a b v).
Proof.
  intros Hr HR1 HR2 Ho Hd. unfold api_compare.
  pose proof (compare_fun_rel t op) as HC. rewrite Hr in HC.
  destruct (compare_fun t op) as [f|]; [|tauto].
  destruct (exec_bin_any f (fun x y v => v = f x y) _ _ _ _ _ HR1) as (h1 & -> & HL1 & HV1 & HO1); [reflexivity|].
  cbn [option_bind].
  assert (HR2' : ready h1 [OImg tmp; tv; fv] out sched2).
  { destruct HR2 as (P & F & S). split; [|split; [|exact S]].
    - unfold placed in *. rewrite HL1. exact P.
    - eapply Forall_impl; [|exact F]. intros [d|c]; cbn; [|tauto]. unfold placed. rewrite HL1. tauto. }
  destruct (exec_ter_any px_test (fun x y z v => v = px_test x y z) _ _ _ _ _ _ HR2') as (h2 & -> & HL2 & HV2 & HO2); [reflexivity|].
  cbn [option_bind]. exists h2. split; [reflexivity|]. split; [congruence|]. split.
  { intros a Ha1 Ha2. rewrite HO2, HO1 by assumption. reflexivity. }
  intros k Hk. destruct HR2 as (P2 & F2 & S2).
  inversion F2 as [|? ? Ftmp F2']; subst. inversion F2' as [|? ? Ftv F2'']; subst.
  inversion F2'' as [|? ? Ffv _]; subst.
  assert (Ed : idims tmp = idims out) by (cbn in Ftmp; tauto).
  destruct (HV2 k Hk) as (vs & v & G & Rv & Pv).
  inversion G as [|? c ? l Hc G1]; subst. inversion G1 as [|? a ? l' Ha G2]; subst.
  inversion G2 as [|? b ? l'' Hb G3]; subst. inversion G3; subst. cbn [R3] in Pv.
  rewrite <- Ed in Hk. destruct (HV1 k Hk) as (vs & v' & G' & Rv' & Pv').
  inversion G' as [|? x ? l Hx G1']; subst. inversion G1' as [|? y ? l' Hy G2']; subst. inversion G2'; subst.
  cbn [R2] in Pv'. cbn in Hc. rewrite Rv' in Hc. injection Hc as <-.
  rewrite Ed in Hk.
  exists x, y, a, b, (px_test v' a b). split; [exact Hx|]. split; [exact Hy|].
  split; [|split; [|split; [exact Rv|]]].
  - eapply (operand_value_frame h h1 tmp tv out); eauto. intros d -> z Hz. apply Hd with (a := z); [|exact Hz]. cbn; auto.
  - eapply (operand_value_frame h h1 tmp fv out); eauto. intros d -> z Hz. apply Hd with (a := z); [|exact Hz]. cbn; auto.
  - subst v'. destruct (HC x y) as [C1 C2]. pose proof (tmax_pos t).
    unfold picks, px_test, nz. split; intros Q.
    + rewrite (C1 Q). destruct (tmax t =? 0) eqn:E; cbn; lia.
    + rewrite (C2 Q). reflexivity.
Qed.

Lemma equ_scan_ok h n a b : 0 <= a -> 0 <= b -> a + Z.of_nat n <= Z.of_nat (length h) ->
  b + Z.of_nat n <= Z.of_nat (length h) ->
  exists r, equ_scan h a b n = Some r /\
    (r = true <-> forall k, 0 <= k < Z.of_nat n -> rd h (a + k) = rd h (b + k)).
Proof.
  revert a b; induction n as [|n IH]; intros a b Ha Hb HA HB.
  - exists true. split; [reflexivity|]. split; [intros; lia|reflexivity].
  - cbn [equ_scan]. destruct (rd_in_range h a) as [x Hx]; [lia|]. destruct (rd_in_range h b) as [y Hy]; [lia|].
    rewrite Hx, Hy. destruct (Z.eqb_spec x y) as [->|N]; cbn.
    + destruct (IH (a + 1) (b + 1)) as (r & -> & Hr); try lia. exists r. split; [reflexivity|]. rewrite Hr.
      split; intros H k Hk.
      * destruct (Z.eq_dec k 0) as [->|]; [rewrite !Z.add_0_r; congruence|].
        replace (a + k) with (a + 1 + (k - 1)) by lia. replace (b + k) with (b + 1 + (k - 1)) by lia. apply H. lia.
      * replace (a + 1 + k) with (a + (k + 1)) by lia. replace (b + 1 + k) with (b + (k + 1)) by lia. apply H. lia.
    + exists false. split; [reflexivity|]. split; [discriminate|]. intros H. exfalso. apply N.
      specialize (H 0). rewrite !Z.add_0_r in H. specialize (H ltac:(lia)). congruence.
Qed.

Lemma equ_bool_ok h a b : idims a = idims b -> placed h a -> placed h b ->
  exists r, api_equ_bool h a b = Some r /\
    (r = true <-> forall k, 0 <= k < dw (idims a) * dh (idims a) * dd (idims a) -> rd h (ibase a + k) = rd h (ibase b + k)).
Proof.
  intros E (Wa & A1 & A2) (Wb & B1 & B2). unfold api_equ_bool. rewrite pixelCount_eq.
  destruct Wa as (W1 & W2 & W3).
  assert (0 <= dw (idims a) * dh (idims a) * dd (idims a)) by (apply Z.mul_nonneg_nonneg; [apply Z.mul_nonneg_nonneg|]; lia).
  rewrite <- E in B2.
  destruct (equ_scan_ok h (Z.to_nat (dw (idims a) * dh (idims a) * dd (idims a))) (ibase a) (ibase b)) as (r & Hr & Hr2); try lia.
  exists r. rewrite Z2Nat.id in Hr2 by assumption. auto.
Qed.

Lemma threshold_ok minVal maxVal tv fv imIn out sched h : ready h [OImg imIn] out sched ->
  exists h', api_threshold minVal maxVal tv fv imIn out sched h = Some h' /\
    pixelwise_result (R1 (fun x v =>
      (minVal <= maxVal -> picks (minVal <= x <= maxVal) tv fv v) /\
      (minVal > maxVal -> picks (maxVal <= x <= minVal) fv tv v))) [OImg imIn] out h h'.
Proof.
  intros HR. unfold api_threshold. destruct (minVal >? maxVal) eqn:E;
  (apply exec_un_any; [exact HR|]); intros x; unfold px_thresh, picks;
  destruct (_ && _) eqn:E2; repeat split; intros; lia.
Qed.

Lemma threshold_short_ok t t_out minVal maxVal imIn out sched h : ready h [OImg imIn] out sched ->
  typed t h out (OImg imIn) -> inty t minVal ->
  (exists h', api_threshold2 t_out minVal maxVal imIn out sched h = Some h' /\
    pixelwise_result (R1 (fun x v =>
      (minVal <= maxVal -> picks (minVal <= x <= maxVal) (tmax t_out) (tmin t_out) v) /\
      (minVal > maxVal -> picks (maxVal <= x <= minVal) (tmin t_out) (tmax t_out) v))) [OImg imIn] out h h') /\
  (exists h', api_threshold1 t t_out minVal imIn out sched h = Some h' /\
    pixelwise_result (R1 (fun x v => picks (minVal <= x) (tmax t_out) (tmin t_out) v)) [OImg imIn] out h h').
Proof.
  intros HR HT HM. split; [apply threshold_ok; exact HR|].
  unfold api_threshold1, api_threshold. unfold inty in HM. replace (minVal >? tmax t) with false by lia.
  apply (exec_un _ _ t); auto. intros x Hx. unfold inty in Hx. unfold px_thresh, picks.
  destruct (_ && _) eqn:E2; split; intros; lia.
Qed.

(** A decision procedure for [ready], used for the concrete cases. *)
Definition event_eqb (a b : event) : bool :=
  match a, b with
  | Ld i p, Ld j q => (i =? j) && (p =? q)
  | St i p, St j q => (i =? j) && (p =? q)
  | _, _ => false
  end.
Definition sizeof (d : idesc) : Z := dw (idims d) * dh (idims d) * dd (idims d).
Definition placedb (h : heap) (d : idesc) : bool :=
  (0 <=? dw (idims d)) && (0 <=? dh (idims d)) && (0 <=? dd (idims d)) && (0 <=? ibase d) &&
  (ibase d + sizeof d <=? Z.of_nat (length h)).
Definition dims_eqb (a b : dims) : bool := (dw a =? dw b) && (dh a =? dh b) && (dd a =? dd b).
Definition operand_okb (h : heap) (out : idesc) (o : operand) : bool :=
  match o with
  | OVal _ => true
  | OImg d => dims_eqb (idims d) (idims out) && placedb h d &&
      ((ibase d =? ibase out) || (ibase d + sizeof d <=? ibase out) || (ibase out + sizeof out <=? ibase d))
  end.
Definition readyb (h : heap) (srcs : list operand) (out : idesc) (sched : list event) : bool :=
  placedb h out && forallb (operand_okb h out) srcs && sched_okb sched &&
  let all := all_events (dw (idims out)) (dd (idims out) * dh (idims out)) in
  (Nat.leb (length sched) (length all)) && forallb (fun e => existsb (event_eqb e) sched) all.

Lemma placedb_ok h d : placedb h d = true -> placed h d.
Proof. unfold placedb, placed, wf_dims, sizeof. rewrite !andb_true_iff, !Z.leb_le. intuition. Qed.

Lemma event_eqb_eq a b : event_eqb a b = true -> a = b.
Proof. destruct a, b; cbn; try discriminate; intros H; f_equal; lia. Qed.

Lemma readyb_ok h srcs out sched : readyb h srcs out sched = true -> ready h srcs out sched.
Proof.
  unfold readyb. rewrite !andb_true_iff. intros (((H1 & H2) & H3) & H4 & H5).
  split; [apply placedb_ok; exact H1|]. split; [|split].
  - rewrite forallb_forall in H2. apply Forall_forall. intros o Ho. specialize (H2 o Ho).
    destruct o as [d|c]; cbn in *; [|exact I].
    rewrite !andb_true_iff in H2. destruct H2 as ((E & P) & D). split; [|split].
    + unfold dims_eqb in E. destruct (idims d), (idims out); cbn in E. f_equal; lia.
    + apply placedb_ok; exact P.
    + unfold same_or_disjoint, owns, sizeof in *. apply orb_prop in D as [D|D]; [apply orb_prop in D as [D|D]|].
      * left; lia.
      * right; intros; lia.
      * right; intros; lia.
  - apply Permutation_sym. apply NoDup_Permutation_bis.
    + apply all_events_NoDup.
    + apply Nat.leb_le. exact H4.
    + intros e He. rewrite forallb_forall in H5. specialize (H5 e He).
      apply existsb_exists in H5 as (e' & I1 & I2). apply event_eqb_eq in I2. subst. exact I1.
  - apply sched_okb_spec. exact H3.
Qed.
