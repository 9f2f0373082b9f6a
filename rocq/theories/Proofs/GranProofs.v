From Verif Require Export Proofs.AsfProofs2 Model.Granulometry.
From Verif Require Import Proofs.MeasureProofs Proofs.HitOrMissProofs.
Local Open Scope Z_scope.

Lemma considered_all im : considered false im = pixs im.
Proof. reflexivity. Qed.

Lemma grid_ne s : wf_dims s -> 0 < dw s -> 0 < dh s -> 0 < dd s -> In (0, 0, 0) (grid (dw s) (dh s) (dd s)).
Proof. intros W A B C. apply grid_In. repeat split; lia. Qed.

Lemma Zsum_map_le (f g : Z * Z * Z -> Z) l : (forall p, In p l -> f p <= g p) -> Zsum (map f l) <= Zsum (map g l).
Proof.
  induction l as [|p l IH]; intros H; [cbn; lia|]. cbn [map]. rewrite !Zsum_cons. specialize (IH (fun q Hq => H q (or_intror Hq))). specialize (H p (or_introl eq_refl)). lia.
Qed.

Section Loop.
Context (t : ity) (junk : Z -> Z) (cs : nat -> nat -> nat -> conf) (se : strelt) (s : dims).
Context (Ws : wf_dims s) (W0 : 0 < dw s) (W1 : 0 < dh s) (W2 : 0 < dd s) (WB : dw s < 2 ^ 63) (HG : good_se se s).
Context (HL : forall k i j, legal_conf (dh s) (cs k i j)) (EV : exact_volumes t s).
Context (step maxSe minv : Z) (Hst : 0 <= step).
Local Notation mk := (mk_img s).
Local Notation fn := (Z -> Z -> Z -> Z).

Definition vlm (F : fn) : Z := Zsum (pixs (mk F)).

Lemma typed_px_mk F : typedf t s F -> typedf t s (pxv (mk F)).
Proof. intros TF x y z Hi. rewrite pxv_mk by assumption. apply TF. exact Hi. Qed.

Lemma er_mk n F x y z : inside s x y z -> er t s se n (pxv (mk F)) x y z = er t s se n F x y z.
Proof. intros Hi. apply cann_ext; [|exact Hi]. intros. apply pxv_mk; assumption. Qed.
Lemma dl_mk n F x y z : inside s x y z -> dl t s se n (pxv (mk F)) x y z = dl t s se n F x y z.
Proof. intros Hi. apply cann_ext; [|exact Hi]. intros. apply pxv_mk; assumption. Qed.

Lemma erode_mk k i n F out alias : wf_img out -> sz out = s -> 0 <= n -> (alias = true -> out = mk F) ->
  erode junk (cs k i) (tmax t) (with_size se n) alias (mk F) out = Some (1, mk (er t s se (Z.to_nat n) F)).
Proof.
  intros Wo So Hn A. rewrite (erode_eq t junk _ _ (AsfProofs2.mk_good s Ws W0 W1 W2 WB F) (good_sized se s n HG Hn) (cs k i) alias out (fun j => HL k i j) Wo So A).
  do 2 f_equal. apply mk_img_ext. intros x y z Hi. exact (er_mk (Z.to_nat n) F x y z Hi).
Qed.
Lemma dilate_mk k i n F out alias : wf_img out -> sz out = s -> 0 <= n -> (alias = true -> out = mk F) ->
  dilate junk (cs k i) (tmin t) (with_size se n) alias (mk F) out = Some (1, mk (dl t s se (Z.to_nat n) F)).
Proof.
  intros Wo So Hn A. rewrite (dilate_eq t junk _ _ (AsfProofs2.mk_good s Ws W0 W1 W2 WB F) (good_sized se s n HG Hn) (cs k i) alias out (fun j => HL k i j) Wo So A).
  do 2 f_equal. apply mk_img_ext. intros x y z Hi. exact (dl_mk (Z.to_nat n) F x y z Hi).
Qed.

Lemma HN0 : se_points se <> [].
Proof. exact (gse_ne _ _ HG). Qed.

Lemma vlm_ok F : typedf t s F -> volume (mk F) = Some (vlm F).
Proof. intros TF. apply (typed_volume t); [apply mk_img_wf; exact Ws|apply typed_mk; exact TF|exact EV]. Qed.

(** The least upper bound of the values of a function on the grid. *)
Definition tops (F : fn) (m : Z) : Prop := (exists x y z, inside s x y z /\ F x y z = m) /\ leq s F (fun _ _ _ => m).

Lemma mk_In F v : In v (pixs (mk F)) <-> exists x y z, inside s x y z /\ F x y z = v.
Proof.
  unfold mk_img. cbn [pixs]. rewrite in_map_iff. split.
  - intros ([[x y] z] & E & H). apply grid_In in H. exists x, y, z. split; [exact H|exact E].
  - intros (x & y & z & H & E). exists (x, y, z). split; [exact E|]. apply grid_In. exact H.
Qed.

Lemma max_ok F : typedf t s F -> exists m, maxVal t false (mk F) = Some m /\ tops F m.
Proof.
  intros TF. destruct (maxVal_ok t false (mk F)) as (m & E & I & B).
  - apply mk_img_wf. exact Ws.
  - apply typed_mk. exact TF.
  - rewrite considered_all. intros C. apply (in_nil (a := F 0 0 0)). rewrite <- C. apply mk_In. exists 0, 0, 0. repeat split; lia.
  - exists m. split; [exact E|]. rewrite considered_all in *. split; [apply mk_In; exact I|]. intros x y z Hi. apply B. apply mk_In. exists x, y, z. auto.
Qed.

Lemma gran_step fuel k F open seSize v0 res : typedf t s F -> wf_img open -> sz open = s -> 0 <= seSize ->
  exists m, tops (er t s se (Z.to_nat step) F) m /\
  let E := er t s se (Z.to_nat step) F in let O := dl t s se (Z.to_nat (seSize mod 2 ^ 32)) E in
  gran_loop (S fuel) t junk cs se step maxSe minv k (mk F) open seSize v0 res =
  if (m >? minv) && ((maxSe =? 0) || (maxSe >=? (seSize + step) mod 2 ^ 64))
  then gran_loop fuel t junk cs se step maxSe minv (S k) (mk E) (mk O) ((seSize + step) mod 2 ^ 64) (vlm O) (res ++ [v0 - vlm O])
  else Some (Some (res ++ [v0 - vlm O])).
Proof.
  intros TF Wo So Hs. pose proof (er_typed t s se HN0 (Z.to_nat step) F TF) as TE. destruct (max_ok _ TE) as (m & Em & Hm). exists m. split; [exact Hm|].
  cbn [gran_loop]. rewrite erode_mk by (auto using mk_img_wf). cbn [option_bind snd]. rewrite dilate_mk; [|exact Wo|exact So|apply Z.mod_pos_bound; lia|discriminate].
  cbn [option_bind snd]. rewrite vlm_ok by (apply dl_typed; [exact HN0|exact TE]). cbn [option_bind]. rewrite Em. reflexivity.
Qed.

(** ** What the loop computes *)
Variable F0 : fn.
Hypothesis TF0 : typedf t s F0.
Definition opnk (k : Z) : fn := opn t s se (Z.to_nat (k * step)) F0.
Definition erk (k : Z) : fn := er t s se (Z.to_nat (k * step)) F0.

Lemma erk_typed k : typedf t s (erk k).
Proof. apply er_typed; [exact HN0|exact TF0]. Qed.
Lemma opnk_typed k : typedf t s (opnk k).
Proof. apply opn_typed; [exact HN0|exact TF0]. Qed.
Lemma erk_S k : 0 <= k -> er t s se (Z.to_nat step) (erk k) = erk (k + 1).
Proof. intros Hk. unfold erk. rewrite <- er_add. f_equal. nia. Qed.

Lemma gran_turn fuel k open v0 res : wf_img open -> sz open = s -> (Z.of_nat k + 1) * step < 2 ^ 32 ->
  exists m, tops (erk (Z.of_nat k + 1)) m /\
  gran_loop (S fuel) t junk cs se step maxSe minv k (mk (erk (Z.of_nat k))) open ((Z.of_nat k + 1) * step) v0 res =
  if (m >? minv) && ((maxSe =? 0) || (maxSe >=? (Z.of_nat k + 2) * step))
  then gran_loop fuel t junk cs se step maxSe minv (S k) (mk (erk (Z.of_nat (S k)))) (mk (opnk (Z.of_nat k + 1))) ((Z.of_nat (S k) + 1) * step) (vlm (opnk (Z.of_nat k + 1))) (res ++ [v0 - vlm (opnk (Z.of_nat k + 1))])
  else Some (Some (res ++ [v0 - vlm (opnk (Z.of_nat k + 1))])).
Proof.
  intros Wo So HB. destruct (gran_step fuel k (erk (Z.of_nat k)) open ((Z.of_nat k + 1) * step) v0 res (erk_typed _) Wo So ltac:(nia)) as (m & Hm & E).
  rewrite erk_S in Hm by lia. exists m. split; [exact Hm|]. cbv zeta in E. rewrite E. rewrite erk_S by lia.
  replace (Z.of_nat (S k)) with (Z.of_nat k + 1) by lia. rewrite (Z.mod_small ((Z.of_nat k + 1) * step) (2 ^ 32)) by nia.
  assert (2 ^ 32 = 4294967296) as E32 by reflexivity. assert (2 ^ 64 = 18446744073709551616) as E64 by reflexivity.
  assert (step <= (Z.of_nat k + 1) * step) by nia.
  rewrite (Z.mod_small _ (2 ^ 64)) by nia.
  replace ((Z.of_nat k + 1) * step + step) with ((Z.of_nat k + 2) * step) by lia. replace (Z.of_nat k + 1 + 1) with (Z.of_nat k + 2) by lia. reflexivity.
Qed.

Lemma gran_value fuel : forall k open acc res, wf_img open -> sz open = s -> length acc = k ->
  gran_loop fuel t junk cs se step maxSe minv k (mk (erk (Z.of_nat k))) open ((Z.of_nat k + 1) * step) (vlm (opnk (Z.of_nat k))) acc = Some (Some res) ->
  step * Z.of_nat (length res) < 2 ^ 32 ->
  exists new, res = acc ++ new /\ new <> [] /\
    (forall j, 0 <= j < Z.of_nat (length new) -> rd new j = Some (vlm (opnk (Z.of_nat k + j)) - vlm (opnk (Z.of_nat k + j + 1)))) /\
    (maxSe = 0 -> leq s (erk (Z.of_nat k + Z.of_nat (length new))) (fun _ _ _ => minv)).
Proof.
  induction fuel as [|fuel IH]; intros k open acc res Wo So Ha E HB; [discriminate|].
  assert ((Z.of_nat k + 1) * step < 2 ^ 32) as HB1.
  { enough (Z.of_nat k + 1 <= Z.of_nat (length res)) by nia.
    clear - E Ha. revert k open acc Ha E. enough (forall f k a o sz0 v acc, gran_loop f t junk cs se step maxSe minv k a o sz0 v acc = Some (Some res) -> (length acc + 1 <= length res)%nat) as K.
    { intros k open acc Ha E. apply K in E. lia. }
    induction f as [|f IH]; intros k a o sz0 v acc E; [discriminate|]. cbn [gran_loop] in E.
    destruct (erode _ _ _ _ _ _ _) as [r1|]; [|discriminate]. cbn [option_bind] in E. destruct (dilate _ _ _ _ _ _ _) as [r2|]; [|discriminate]. cbn [option_bind] in E.
    destruct (volume _) as [v1|]; [|discriminate]. cbn [option_bind] in E. destruct (maxVal _ _ _) as [mx|]; [|discriminate]. cbn [option_bind] in E.
    destruct (_ && _).
    - apply IH in E. rewrite app_length in E. cbn in E. lia.
    - injection E as <-. rewrite app_length. cbn. lia. }
  destruct (gran_turn fuel k open (vlm (opnk (Z.of_nat k))) acc Wo So HB1) as (m & (_ & Hm) & Et). rewrite Et in E. clear Et.
  destruct ((m >? minv) && ((maxSe =? 0) || (maxSe >=? (Z.of_nat k + 2) * step))) eqn:C.
  - replace (vlm (opnk (Z.of_nat k + 1))) with (vlm (opnk (Z.of_nat (S k)))) in E at 1 by (do 2 f_equal; lia).
    apply IH in E; [|apply mk_img_wf; exact Ws|reflexivity|rewrite app_length; cbn; lia|exact HB].
    destruct E as (new & -> & Hn & Hv & Hend). exists ((vlm (opnk (Z.of_nat k)) - vlm (opnk (Z.of_nat k + 1))) :: new).
    split; [rewrite <- app_assoc; reflexivity|]. split; [discriminate|]. split.
    + intros j Hj. destruct (Z.eq_dec j 0) as [->|Hj0].
      * rewrite Z.add_0_r. reflexivity.
      * cbn [length] in Hj. replace j with (1 + (j - 1)) by lia. change (?a :: new) with ([a] ++ new). rewrite rd_app. cbn [length].
        replace (1 + (j - 1) <? Z.of_nat 1) with false by lia. replace (1 + (j - 1) - Z.of_nat 1) with (j - 1) by lia. rewrite Hv by lia.
        f_equal. f_equal; do 2 f_equal; lia.
    + intros H0. cbn [length]. replace (Z.of_nat k + Z.of_nat (S (length new))) with (Z.of_nat (S k) + Z.of_nat (length new)) by lia. apply Hend. exact H0.
  - injection E as <-. exists [vlm (opnk (Z.of_nat k)) - vlm (opnk (Z.of_nat k + 1))]. split; [reflexivity|]. split; [discriminate|]. split.
    + intros j Hj. cbn in Hj. assert (j = 0) as -> by lia. rewrite Z.add_0_r. reflexivity.
    + intros ->. cbn [orb Z.eqb] in C. rewrite andb_true_r in C. change (Z.of_nat (length [vlm (opnk (Z.of_nat k)) - vlm (opnk (Z.of_nat k + 1))])) with 1. intros x y z Hi. specialize (Hm x y z Hi). cbn beta in *. lia.
Qed.

(** ** Termination *)
Lemma gran_ends fuel : forall k K open acc v0, wf_img open -> sz open = s -> length acc = k -> (k <= K)%nat -> (K - k < fuel)%nat ->
  (Z.of_nat K + 1) * step < 2 ^ 32 -> leq s (erk (Z.of_nat K + 1)) (fun _ _ _ => minv) ->
  exists res, gran_loop fuel t junk cs se step maxSe minv k (mk (erk (Z.of_nat k))) open ((Z.of_nat k + 1) * step) v0 acc = Some (Some res) /\ (length res <= K + 1)%nat.
Proof.
  induction fuel as [|fuel IH]; intros k K open acc v0 Wo So Ha Hk Hf HB HE; [lia|].
  destruct (gran_turn fuel k open v0 acc Wo So ltac:(nia)) as (m & ((x & y & z & Hi & Em) & _) & Et). rewrite Et. clear Et.
  destruct ((m >? minv) && ((maxSe =? 0) || (maxSe >=? (Z.of_nat k + 2) * step))) eqn:C.
  - assert (k <> K). { intros ->. specialize (HE x y z Hi). cbn beta in HE. apply andb_prop in C as (C & _). lia. }
    apply IH; [apply mk_img_wf; exact Ws|reflexivity|rewrite app_length; cbn; lia|lia|lia|exact HB|exact HE].
  - eexists. split; [reflexivity|]. rewrite app_length. cbn. lia.
Qed.

Lemma gran_forever fuel : forall k F open seSize v0 acc, maxSe = 0 -> typedf t s F -> wf_img open -> sz open = s -> 0 <= seSize ->
  (forall x y z, inside s x y z -> er t s se (Z.to_nat step) F x y z = F x y z) -> (exists x y z, inside s x y z /\ minv < F x y z) ->
  gran_loop fuel t junk cs se step maxSe minv k (mk F) open seSize v0 acc = Some None.
Proof.
  induction fuel as [|fuel IH]; intros k F open seSize v0 acc H0 TF Wo So Hs Hfix Hex; [reflexivity|].
  destruct (gran_step fuel k F open seSize v0 acc TF Wo So Hs) as (m & (_ & Hm) & E). cbv zeta in E. rewrite E. clear E.
  destruct Hex as (x & y & z & Hi & Hv). pose proof (Hm x y z Hi) as K. cbn beta in K. rewrite Hfix in K by exact Hi.
  replace (m >? minv) with true by lia. rewrite H0. cbn [andb orb Z.eqb]. rewrite <- H0.
  rewrite (mk_img_ext s (er t s se (Z.to_nat step) F) F Hfix). apply IH; auto using mk_img_wf.
  - apply Z.mod_pos_bound. lia.
  - exists x, y, z. auto.
Qed.
End Loop.
