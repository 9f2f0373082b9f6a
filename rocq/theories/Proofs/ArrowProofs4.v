(** fastMinima and fastMaxima. *)
From Coq Require Import String.
From Verif Require Export Proofs.ArrowProofs3 Proofs.GeodesicFilters Proofs.ZonesProofs.

Lemma arrow_same_ok t junk cs op cmp bv se im out : arrow_cmp op = Some cmp -> se_size se = 1 -> se_type se <> SE_Rhombicuboctahedron ->
  arrow_same t junk cs op bv se false im out = option_bind (arrow_single t junk (cs O) cmp bv se false im out) (fun r => Some (1, r)).
Proof.
  intros E H1 HT. unfold arrow_same, arrow_exec. rewrite E, H1. change (1 =? 0) with false. change (Z.to_nat (1 - 1)) with O. cbn [negb andb arrow_inplace].
  change (1 =? 1) with true. rewrite orb_true_r.
  destruct (se_type se); try contradiction; destruct (arrow_single t junk (cs O) cmp bv se false im out); reflexivity.
Qed.

Section Fast.
Variables (t : ity) (se : strelt) (im : img) (R : Z -> Z -> Prop).
Hypothesis Hu : is_signed t = false.
Hypothesis W : wf_img im.
Hypothesis Hs : int_sized (sz im).
Hypothesis HP : int_points se.
Hypothesis HPl : planar se (sz im).
Hypothesis HSy : symmetric_se se.
Hypothesis HB : Z.of_nat (length (se_points (noCenter se))) <= nbits t.
Hypothesis HR : forall a, ~ R a a.
Let s := sz im.

(** (x',y',z') is a neighbour of (x,y,z). *)
Definition nbr (x y z x' y' z' : Z) : Prop :=
  exists p, In p (se_points (noCenter se)) /\ x' = ahead_x (se_odd se) x y p /\ y' = y + py_ p /\ z' = z + pz_ p.

Lemma nbr_sees x y z x' y' z' : inside s x y z -> inside s x' y' z' -> nbr x y z x' y' z' -> sees se x' y' z' x y z.
Proof using HPl.
  intros I I' (p & Hp & A & B & C). apply (sees_shift se s x' y' z' x y z HPl I' I). apply noCenter_In in Hp as (Hp & _). exists p. split; [exact Hp|]. split; [|split; assumption].
  rewrite A. unfold ahead_x, hex_shift. rewrite B. reflexivity.
Qed.
Lemma sees_nbr x y z x' y' z' : inside s x y z -> inside s x' y' z' -> sees se x' y' z' x y z -> nbr x y z x' y' z' \/ (x = x' /\ y = y' /\ z = z').
Proof using HPl.
  clear t Hu HB R HR W Hs HP HSy. intros I I' H. apply (sees_shift se s x' y' z' x y z HPl I' I) in H as (p & Hp & A & B & C).
  assert (D : p = (0, 0, 0) \/ p <> (0, 0, 0)). { destruct p as ((px & py) & pz). destruct (Z.eq_dec px 0), (Z.eq_dec py 0), (Z.eq_dec pz 0); subst; auto; right; intros [=]; contradiction. }
  destruct D as [->|D].
  - right. unfold px_, py_, pz_, hex_shift in *. cbn [fst snd] in *. rewrite Z.add_0_r in B. subst y'. rewrite <- Z.negb_odd in A. destruct (se_odd se), (Z.odd y); cbn in A; lia.
  - left. exists p. split; [apply noCenter_In; auto|]. split; [|split; assumption]. rewrite A. unfold ahead_x, hex_shift. rewrite B. reflexivity.
Qed.
Lemma nbr_sym x y z x' y' z' : inside s x y z -> inside s x' y' z' -> nbr x y z x' y' z' -> nbr x' y' z' x y z \/ (x' = x /\ y' = y /\ z' = z).
Proof using HPl HSy. intros I I' H. apply sees_nbr; [exact I'|exact I|]. apply (sees_sym se s x y z x' y' z' HSy HPl I I'). apply nbr_sees; assumption. Qed.

(** A path of equal values goes to a pixel with a neighbour of a value beyond. *)
Inductive esc : Z -> Z -> Z -> Prop :=
| esc_here x y z x' y' z' a b : pixel_is im x y z a -> pixel_is im x' y' z' b -> nbr x y z x' y' z' -> R a b -> esc x y z
| esc_next x y z x' y' z' a : pixel_is im x y z a -> pixel_is im x' y' z' a -> nbr x y z x' y' z' -> esc x' y' z' -> esc x y z.

Definition beyond (v x y z : Z) : Prop := joined se (fun b => b = v \/ R v b) (fun x y z => exists a, pixel_is im x y z a /\ R v a) im x y z.

Lemma esc_beyond x y z : esc x y z -> forall v, pixel_is im x y z v -> beyond v x y z.
Proof using HPl HSy.
  induction 1 as [x y z x' y' z' a b Pa Pb N Rab|x y z x' y' z' a Pa Pb N E IH]; intros v Pv; pose proof (LoopFacts.pixel_is_fun _ _ _ _ _ _ Pv Pa) as ->.
  - apply joined_step with x' y' z' a; [|apply (sees_sym se s); try assumption; [apply Pa|apply Pb|apply nbr_sees; [apply Pa|apply Pb|exact N]]|exact Pa|left; reflexivity].
    apply joined_seed with b; [exists b; auto|exact Pb|right; exact Rab].
  - apply joined_step with x' y' z' a; [apply IH; exact Pb|apply (sees_sym se s); try assumption; [apply Pa|apply Pb|apply nbr_sees; [apply Pa|apply Pb|exact N]]|exact Pa|left; reflexivity].
Qed.
Lemma beyond_esc v x y z : beyond v x y z -> forall u, pixel_is im x y z u -> R v u \/ (u = v /\ esc x y z).
Proof using W HPl HSy HR.
  induction 1 as [x y z b (a & Pa & Ra) Pb _|x y z x' y' z' b J IH Se Pb Ob]; intros u Pu.
  - left. rewrite (LoopFacts.pixel_is_fun _ _ _ _ _ _ Pu Pa). exact Ra.
  - pose proof (LoopFacts.pixel_is_fun _ _ _ _ _ _ Pu Pb) as ->. destruct Ob as [->|Ob]; [|left; exact Ob]. right. split; [reflexivity|].
    assert (I' : inside s x' y' z') by (inversion J as [? ? ? ? ? (Q & _)|? ? ? ? ? ? ? ? ? (Q & _)]; exact Q).
    assert (I : inside s x y z) by apply Pb. destruct (LoopFacts.pixel_exists im x' y' z' W I') as (c & Pc).
    apply (sees_sym se s x y z x' y' z' HSy HPl I I') in Se. destruct (sees_nbr x y z x' y' z' I I' Se) as [N|(-> & -> & ->)].
    + destruct (IH c Pc) as [Rc|(-> & E)]; [eapply esc_here; eassumption|eapply esc_next; eassumption].
    + destruct (IH v Pb) as [Rc|(_ & E)]; [destruct (HR _ Rc)|exact E].
Qed.
Lemma esc_iff x y z v : pixel_is im x y z v -> (esc x y z <-> beyond v x y z).
Proof using W HPl HSy HR. intros P. split; [intros E; apply (esc_beyond _ _ _ E _ P)|]. intros B. destruct (beyond_esc _ _ _ _ B _ P) as [Q|(_ & Q)]; [destruct (HR _ Q)|exact Q]. Qed.

(** The two arrow images. *)
Variables (A1 A2 : img) (bv1 bv2 : Z).
Hypothesis HA1 : arrows_of t R (noCenter se) bv1 im A1.
Hypothesis HA1' : no_other_bits (noCenter se) A1.
Hypothesis HA2 : arrows_of t (fun a u => a = u) (noCenter se) bv2 im A2.
Hypothesis HA2' : no_other_bits (noCenter se) A2.
Hypothesis Hbv : forall x y z a, pixel_is im x y z a -> ~ R a bv1.

Lemma sz_A1 : sz A1 = s. Proof using HA1. apply HA1. Qed.
Lemma sz_A2 : sz A2 = s. Proof using HA2. apply HA2. Qed.

Lemma bits_zero v : 0 <= v -> (forall k, 0 <= k < Z.of_nat (length (se_points (noCenter se))) -> Z.testbit v k = false) ->
  (forall k, Z.of_nat (length (se_points (noCenter se))) <= k -> Z.testbit v k = false) -> v = 0.
Proof using. clear. intros Hv H1 H2. apply Z.bits_inj. intros k. rewrite Z.testbit_0_l. destruct (Z_lt_le_dec k 0) as [N|P]; [apply Z.testbit_neg_r; exact N|]. destruct (Z_lt_le_dec k (Z.of_nat (length (se_points (noCenter se))))); [apply H1; lia|apply H2; lia]. Qed.

Lemma A1_zero x y z a v : pixel_is im x y z a -> pixel_is A1 x y z v -> (v <> 0 <-> exists x' y' z' b, pixel_is im x' y' z' b /\ nbr x y z x' y' z' /\ R a b).
Proof using Hu W Hs HP HPl HSy HB HR HA1 HA1' HA2 HA2' Hbv.
  intros Pa Pv. destruct HA1 as (S1 & W1 & H). destruct (H x y z a v Pa Pv) as (Rg & B). split.
  - intros N. assert (Q : exists k p, rd (se_points (noCenter se)) k = Some p /\ Z.testbit v k = true).
    { destruct (Exists_dec (fun k => Z.testbit v k = true) (zseq (Z.of_nat (length (se_points (noCenter se))))) ) as [E|E]; [intros k; destruct (Z.testbit v k); [left; reflexivity|right; discriminate]| |].
      - apply Exists_exists in E as (k & Ik & T). apply zseq_In in Ik. destruct (rd_in_range (se_points (noCenter se)) k Ik) as (p & Ep). exists k, p. auto.
      - exfalso. apply N. apply bits_zero; [lia| |intros k Lk; eapply HA1'; eassumption]. intros k Hk. destruct (Z.testbit v k) eqn:T; [|reflexivity]. exfalso. apply E. apply Exists_exists. exists k. split; [apply zseq_In; exact Hk|exact T]. }
    destruct Q as (k & p & Rk & T). pose proof (rd_Some_range _ _ _ Rk) as Rr. apply (B k p Rk ltac:(lia)) in T as (u & Ru & RR).
    destruct Ru as [Pu|(_ & ->)]; [|destruct (Hbv _ _ _ _ Pa RR)]. exists (ahead_x (se_odd se) x y p), (y + py_ p), (z + pz_ p), u.
    split; [exact Pu|]. split; [|exact RR]. exists p. split; [eapply rd_In; exact Rk|auto].
  - intros (x' & y' & z' & b & Pb & (p & Ip & -> & -> & ->) & Rab) ->. destruct (In_rd _ _ Ip) as (k & Hk & Rk). assert (T : Z.testbit 0 k = true); [|rewrite Z.testbit_0_l in T; discriminate].
    apply (B k p Rk ltac:(lia)). exists b. split; [|exact Rab]. left. exact Pb.
Qed.

Lemma A2_leads x y z x' y' z' : leads t (noCenter se) A2 x y z x' y' z' <-> nbr x y z x' y' z' /\ exists a, pixel_is im x y z a /\ pixel_is im x' y' z' a.
Proof using Hu W Hs HP HPl HSy HB HR HA1 HA1' HA2 HA2' Hbv.
  destruct HA2 as (S2 & W2 & H). split.
  - intros (k & p & a & Rk & Lk & Pv & T & Ex & Ey & Ez & I'). rewrite S2 in I'. split; [exists p; split; [eapply rd_In; exact Rk|auto]|].
    assert (I : inside (sz im) x y z) by (rewrite <- S2; apply Pv). destruct (LoopFacts.pixel_exists im x y z W I) as (c & Pc). exists c. split; [exact Pc|].
    apply (proj2 (H x y z c a Pc Pv) k p Rk Lk) in T as (u & Ru & <-). unfold reads_ahead in Ru. change (se_odd (noCenter se)) with (se_odd se) in *. rewrite <- Ex, <- Ey, <- Ez in Ru.
    destruct Ru as [Q|(N & _)]; [|contradiction]. exact Q.
  - intros ((p & Ip & Ex & Ey & Ez) & a & Pa & Pa'). destruct (In_rd _ _ Ip) as (k & Hk & Rk).
    assert (I : inside (sz A2) x y z) by (rewrite S2; apply Pa). destruct (LoopFacts.pixel_exists A2 x y z W2 I) as (v & Pv).
    exists k, p, v. split; [exact Rk|]. split; [lia|]. split; [exact Pv|]. split; [|split; [exact Ex|split; [exact Ey|split; [exact Ez|rewrite S2; apply Pa']]]].
    apply (proj2 (H x y z a v Pa Pv) k p Rk ltac:(lia)). exists a. split; [|reflexivity]. unfold reads_ahead. change (se_odd (noCenter se)) with (se_odd se). rewrite <- Ex, <- Ey, <- Ez. left. exact Pa'.
Qed.

Lemma A2_none x y z : pixel_is A2 x y z 0 -> forall x' y' z', ~ leads t (noCenter se) A2 x y z x' y' z'.
Proof using. clear. intros P x' y' z' (k & p & a & _ & _ & Pa & T & _). rewrite (LoopFacts.pixel_is_fun _ _ _ _ _ _ Pa P), Z.testbit_0_l in T. discriminate. Qed.

(** ** The scan *)
Let out1 := pw1 (fun a => px_equ t a 0) A1.
Lemma out1_spec x y z v : pixel_is out1 x y z v -> (v = tmax t \/ v = 0) /\ (v = 0 <-> exists a x' y' z' b, pixel_is im x y z a /\ pixel_is im x' y' z' b /\ nbr x y z x' y' z' /\ R a b).
Proof using Hu W Hs HP HPl HSy HB HR HA1 HA1' HA2 HA2' Hbv.
  intros P. assert (I : inside s x y z) by (pose proof (proj1 P) as Q; unfold out1 in Q; cbn [sz pw1] in Q; rewrite sz_A1 in Q; exact Q).
  destruct (LoopFacts.pixel_exists im x y z W I) as (a & Pa). destruct (LoopFacts.pixel_exists A1 x y z ltac:(apply HA1) ltac:(rewrite sz_A1; exact I)) as (u & Pu).
  destruct (pw1_spec (fun a => px_equ t a 0) A1 ltac:(apply HA1)) as (_ & _ & Q). specialize (Q _ _ _ _ Pu). pose proof (LoopFacts.pixel_is_fun _ _ _ _ _ _ P Q) as ->.
  unfold px_equ. assert (T : tmax t <> 0) by (destruct t; discriminate). pose proof (A1_zero x y z a u Pa Pu) as Z1. destruct (u =? 0) eqn:E; (split; [tauto|]).
  - split; [intros; contradiction|]. intros (a' & x' & y' & z' & b & Pa' & Pb & N & Rb). rewrite (LoopFacts.pixel_is_fun _ _ _ _ _ _ Pa' Pa) in Rb. destruct (proj2 Z1); [exists x', y', z', b; auto|lia].
  - split; [intros _|reflexivity]. destruct (proj1 Z1) as (x' & y' & z' & b & Pb & N & Rb); [lia|]. exists a, x', y', z', b. auto.
Qed.
Lemma out1_wf : wf_img out1 /\ sz out1 = s.
Proof using HA1. split; [apply (pw1_spec _ A1); apply HA1|apply sz_A1]. Qed.

Definition finv (n : Z) (out : img) : Prop :=
  wf_img out /\ sz out = s /\
  (forall x y z v, pixel_is out x y z v -> (v = 1 /\ esc x y z) \/ (v <> 1 /\ pixel_is out1 x y z v)) /\
  (forall x y z x' y' z', pixel_is out x y z 1 -> leads t (noCenter se) A2 x y z x' y' z' -> pixel_is out x' y' z' 1) /\
  (forall x y z x' y' z', voxel_offset (dw s) (dh s) x y z < n -> pixel_is out1 x y z 0 -> leads t (noCenter se) A2 x y z x' y' z' -> pixel_is out x' y' z' 1).

Lemma tmax_big : 1 < tmax t. Proof using. clear. destruct t; reflexivity. Qed.

Lemma finv_first : finv 0 out1.
Proof using Hu W Hs HP HPl HSy HB HR HA1 HA1' HA2 HA2' Hbv.
  destruct out1_wf as (Wo & So). pose proof tmax_big. split; [exact Wo|]. split; [exact So|]. split; [|split].
  - intros x y z v P. right. split; [|exact P]. destruct (out1_spec x y z v P) as ([->| ->] & _); lia.
  - intros x y z x' y' z' P _. destruct (out1_spec x y z 1 P) as ([E|E] & _); lia.
  - intros x y z x' y' z' L P _. pose proof (proj1 P) as I. rewrite So in I. pose proof (inside_range _ _ _ _ I). lia.
Qed.

Lemma leads_inside x y z x' y' z' : leads t (noCenter se) A2 x y z x' y' z' -> inside s x y z /\ inside s x' y' z'.
Proof using Hu W Hs HP HPl HSy HB HR HA1 HA1' HA2 HA2' Hbv. intros L. apply A2_leads in L as (_ & a & (I & _) & (I' & _)). split; assumption. Qed.

Lemma lead_esc x y z x' y' z' : esc x y z -> leads t (noCenter se) A2 x y z x' y' z' -> esc x' y' z'.
Proof using Hu W Hs HP HPl HSy HB HR HA1 HA1' HA2 HA2' Hbv.
  intros E L. apply A2_leads in L as (N & a & Pa & Pb). destruct (nbr_sym x y z x' y' z' ltac:(apply Pa) ltac:(apply Pb) N) as [N'|(-> & -> & ->)]; [|exact E]. exact (esc_next x' y' z' x y z a Pb Pa N' E).
Qed.

Lemma finv_step fuel n out : (length (pixs im) < fuel)%nat -> 0 <= n < dw s * dh s * dd s -> finv n out ->
  exists v a out', rd (pixs out) n = Some v /\ rd (pixs A2) n = Some a /\
    (if (v =? 0) && (a >? 0) then arrowPropagate fuel t (noCenter se) A2 out 1 n else Some (Some out)) = Some (Some out') /\ finv (n + 1) out'.
Proof using Hu W Hs HP HPl HSy HB HR HA1 HA1' HA2 HA2' Hbv.
  intros Hf Hn (Wo & So & V & C & D). destruct (LoopFacts.voxel_surj s n ltac:(apply W) Hn) as (x & y & z & I & En).
  destruct (LoopFacts.pixel_exists out x y z Wo ltac:(rewrite So; exact I)) as (v & Pv). destruct (LoopFacts.pixel_exists A2 x y z ltac:(apply HA2) ltac:(rewrite sz_A2; exact I)) as (a & Pa).
  pose proof Pv as (_ & Ev). rewrite So, <- En in Ev. pose proof Pa as (_ & Ea). rewrite sz_A2, <- En in Ea. exists v, a.
  assert (Only : forall x0 y0 z0, inside s x0 y0 z0 -> voxel_offset (dw s) (dh s) x0 y0 z0 < n + 1 -> voxel_offset (dw s) (dh s) x0 y0 z0 < n \/ (x0 = x /\ y0 = y /\ z0 = z)).
  { intros x0 y0 z0 I0 L. destruct (Z_lt_le_dec (voxel_offset (dw s) (dh s) x0 y0 z0) n) as [Q|Q]; [left; exact Q|right]. apply (LoopFacts.voxel_inj s x0 y0 z0 x y z I0 I). lia. }
  assert (Ra : 0 <= a). { destruct (LoopFacts.pixel_exists im x y z W I) as (c & Pc). destruct HA2 as (_ & _ & Q). apply (Q _ _ _ _ _ Pc Pa). }
  destruct ((v =? 0) && (a >? 0)) eqn:B.
  - assert (v = 0) as -> by lia.
    destruct (V x y z 0 Pv) as [(Q & _)|(_ & P1)]; [lia|]. assert (E1 : esc x y z) by (destruct (out1_spec x y z 0 P1) as (_ & (K1 & _)); destruct (K1 eq_refl) as (c & x' & y' & z' & b & Pc & Pb & N & Rb); eapply esc_here; eassumption).
    destruct (arrowPropagate_ok t (noCenter se) A2 Hu ltac:(apply HA2) ltac:(rewrite sz_A2; exact Hs)) with (fuel := fuel) (out := out) (v := 1) (x0 := x) (y0 := y) (z0 := z) as (res & E & S' & W' & Q).
    + intros p Hp. apply noCenter_In in Hp as (Hp & _). apply HP. exact Hp.
    + assert (NB : nbits t <= 64) by (clear; destruct t; cbn; lia). lia.
    + exact Wo.
    + rewrite sz_A2. exact So.
    + rewrite sz_A2. exact I.
    + replace (length (pixs out)) with (length (pixs im)); [exact Hf|]. apply Nat2Z.inj. destruct Wo as (_ & ->), W as (_ & ->). rewrite So. reflexivity.
    + rewrite sz_A2, <- En in E. exists res. split; [exact Ev|]. split; [exact Ea|]. split; [exact E|].
      assert (Sr : sz res = s) by congruence.
      assert (RE : forall a b c, reached t (noCenter se) A2 out 1 x y z a b c -> esc a b c).
      { induction 1 as [a1 b1 c1 o L _ _|a1 b1 c1 a2 b2 c2 o _ IH L _ _]; eapply lead_esc; eassumption. }
      assert (Mono : forall a b c, pixel_is out a b c 1 -> pixel_is res a b c 1) by (intros a1 b1 c1 P; destruct (Q _ _ _ _ P) as [(_ & K)|(_ & K)]; exact K).
      assert (Out : forall a b c, inside s a b c -> exists o, pixel_is out a b c o) by (intros a1 b1 c1 K; apply LoopFacts.pixel_exists; [exact Wo|rewrite So; exact K]).
      split; [exact W'|]. split; [exact Sr|]. split; [|split].
      * intros a1 b1 c1 w Pw. destruct (Out a1 b1 c1) as (o & Po); [rewrite <- Sr; apply Pw|]. destruct (Q _ _ _ _ Po) as [(Re & K)|(_ & K)]; pose proof (LoopFacts.pixel_is_fun _ _ _ _ _ _ Pw K) as ->; [left; split; [reflexivity|apply RE; exact Re]|apply V; exact Po].
      * intros a1 b1 c1 a2 b2 c2 P1' L. destruct (Out a2 b2 c2) as (o2 & Po2); [apply (leads_inside _ _ _ _ _ _ L)|]. destruct (Out a1 b1 c1) as (o & Po); [apply (leads_inside _ _ _ _ _ _ L)|].
        destruct (Q _ _ _ _ Po) as [(Re & K)|(_ & K)].
        -- destruct (Z.eq_dec o2 1) as [->|N2]; [apply Mono; exact Po2|]. destruct (Q _ _ _ _ Po2) as [(_ & K2)|(NR & _)]; [exact K2|]. exfalso. apply NR. eapply reached_next; eassumption.
        -- pose proof (LoopFacts.pixel_is_fun _ _ _ _ _ _ P1' K) as <-. apply Mono. eapply C; eassumption.
      * intros a1 b1 c1 a2 b2 c2 L1 P1' L. destruct (leads_inside _ _ _ _ _ _ L) as (J1 & J2). destruct (Only _ _ _ J1 L1) as [L2|(-> & -> & ->)]; [apply Mono; eapply D; eassumption|].
        destruct (Out a2 b2 c2 J2) as (o2 & Po2). destruct (Z.eq_dec o2 1) as [->|N2]; [apply Mono; exact Po2|]. destruct (Q _ _ _ _ Po2) as [(_ & K2)|(NR & _)]; [exact K2|]. exfalso. apply NR. eapply reached_first; eassumption.
  - exists out. split; [exact Ev|]. split; [exact Ea|]. split; [reflexivity|]. split; [exact Wo|]. split; [exact So|]. split; [exact V|]. split; [exact C|].
    intros a1 b1 c1 a2 b2 c2 L1 P1' L. destruct (leads_inside _ _ _ _ _ _ L) as (J1 & J2). destruct (Only _ _ _ J1 L1) as [L2|(-> & -> & ->)]; [eapply D; eassumption|].
    destruct (V x y z v Pv) as [(-> & _)|(_ & P1)]; [eapply C; eassumption|]. pose proof (LoopFacts.pixel_is_fun _ _ _ _ _ _ P1 P1') as ->.
    assert (a = 0) as -> by lia. destruct (A2_none _ _ _ Pa _ _ _ L).
Qed.

Lemma scan_all fuel : (length (pixs im) < fuel)%nat -> forall k n out, n + Z.of_nat k = dw s * dh s * dd s -> 0 <= n -> finv n out ->
  exists out', extrema_scan fuel t (noCenter se) A2 (map (fun i => n + Z.of_nat i) (seq 0 k)) out = Some (Some out') /\ finv (dw s * dh s * dd s) out'.
Proof using Hu W Hs HP HPl HSy HB HR HA1 HA1' HA2 HA2' Hbv.
  intros Hf. induction k as [|k IH]; intros n out Hk Hn F.
  - exists out. split; [reflexivity|]. replace (dw s * dh s * dd s) with n by lia. exact F.
  - cbn [seq map extrema_scan]. rewrite Z.add_0_r. destruct (finv_step fuel n out Hf ltac:(lia) F) as (v & a & out' & -> & -> & E & F'). cbn [option_bind]. rewrite E. cbn [fuel_bind].
    destruct (IH (n + 1) out' ltac:(lia) ltac:(lia) F') as (o2 & E2 & F2). exists o2. split; [|exact F2]. rewrite <- E2. f_equal. rewrite <- seq_shift, map_map. apply map_ext. intros i. lia.
Qed.

Lemma finv_done out : finv (dw s * dh s * dd s) out ->
  marks t (fun x y z v => ~ beyond v x y z) im (pw1 (fun v => px_test (wrap t (Z.shiftr v 1)) (tmax t) (wrap t (Z.shiftr v 1))) out).
Proof using Hu W Hs HP HPl HSy HB HR HA1 HA1' HA2 HA2' Hbv.
  intros (Wo & So & V & C & D). set (f := fun v : Z => px_test (wrap t (Z.shiftr v 1)) (tmax t) (wrap t (Z.shiftr v 1))). destruct (pw1_spec f out Wo) as (S1 & W1 & Q). split; [rewrite S1; exact So|]. split; [exact W1|]. pose proof tmax_big as TB.
  assert (F0 : f 0 = 0) by (unfold f; destruct t; reflexivity). assert (F1 : f 1 = 0) by (unfold f; destruct t; reflexivity). assert (FM : f (tmax t) = tmax t) by (unfold f; destruct t; try discriminate; reflexivity).
  assert (K : forall x y z, esc x y z -> ~ pixel_is out x y z (tmax t) /\ forall x' y' z', leads t (noCenter se) A2 x y z x' y' z' -> pixel_is out x' y' z' 1).
  { induction 1 as [x y z x' y' z' a b Pa Pb N Rab|x y z x' y' z' a Pa Pb N E (IH1 & IH2)].
    - assert (I : inside s x y z) by apply Pa. destruct (LoopFacts.pixel_exists out1 x y z) as (o & Po); [apply out1_wf|rewrite (proj2 out1_wf); exact I|].
      assert (o = 0) as -> by (apply (out1_spec x y z o Po); exists a, x', y', z', b; auto). split.
      + intros P. destruct (V _ _ _ _ P) as [(Q1 & _)|(_ & Q1)]; [lia|]. pose proof (LoopFacts.pixel_is_fun _ _ _ _ _ _ Q1 Po). lia.
      + intros x2 y2 z2 L. apply (D x y z x2 y2 z2); [apply inside_range; exact I|exact Po|exact L].
    - destruct (nbr_sym x y z x' y' z' ltac:(apply Pa) ltac:(apply Pb) N) as [N'|(-> & -> & ->)]; [|split; assumption].
      assert (P1 : pixel_is out x y z 1) by (apply IH2; apply A2_leads; split; [exact N'|exists a; auto]). split.
      + intros P. pose proof (LoopFacts.pixel_is_fun _ _ _ _ _ _ P P1). lia.
      + intros x2 y2 z2 L. apply (C x y z); assumption. }
  intros x y z v Pv. destruct (LoopFacts.pixel_exists out x y z Wo) as (o & Po); [rewrite So; apply Pv|]. specialize (Q _ _ _ _ Po).
  destruct (V _ _ _ _ Po) as [(-> & E)|(No & P1)].
  - right. rewrite F1 in Q. split; [intros X; apply X; apply (esc_iff x y z v Pv); exact E|exact Q].
  - destruct (out1_spec _ _ _ _ P1) as ([->| ->] & Z1).
    + left. rewrite FM in Q. split; [|exact Q]. intros B. apply (esc_iff x y z v Pv) in B. destruct (K _ _ _ B) as (X & _). contradiction.
    + right. rewrite F0 in Q. split; [|exact Q]. intros X. apply X. apply (esc_iff x y z v Pv). destruct (proj1 Z1 eq_refl) as (a & x' & y' & z' & b & Pa & Pb & N & Rb). eapply esc_here; eassumption.
Qed.
End Fast.

Lemma fastExtrema_ok fuel t junk c1 c2 se op cmp bv (R : Z -> Z -> Prop) im out : fast_ok fuel t c1 c2 se im out -> arrow_cmp op = Some cmp -> (forall a u, cmp a u = true <-> R a u) ->
  (forall a, ~ R a a) -> (forall a, inty t a -> ~ R a bv) ->
  exists res, fastExtrema fuel t junk c1 c2 se op bv false im out = Some (Some (1, res)) /\ marks t (fun x y z v => ~ beyond se im R v x y z) im res.
Proof.
  intros (Hu & G & HT & Wo & So & Hs & H1 & HTy & HP & HN & HPl & HSy & HE & HB & L1 & L2 & Hf) Ec Hc HR Hbv. pose proof G as (W & _).
  unfold fastExtrema. rewrite same_size_true by congruence. cbn [negb]. destruct (se_points (noCenter se)) as [|p0 ps] eqn:Ep; [contradiction|]. rewrite <- Ep in *.
  assert (L64 : (length (se_points (noCenter se)) <= 64)%nat) by (assert (NB : nbits t <= 64) by (clear; destruct t; cbn; lia); lia).
  assert (HN' : near_points (noCenter se) (sz im)) by (intros p Hp; apply noCenter_In in Hp as (Hp & _); apply HN; exact Hp).
  rewrite (arrow_same_ok t junk c1 op cmp bv (noCenter se) im _ Ec H1 HTy).
  destruct (arrow_run t junk (c1 O) cmp R bv (noCenter se) im (new_img junk im) Hc) as (A1 & E1 & HA1 & HA1'); [repeat (split; [first [assumption|apply new_wf_img; exact W|reflexivity]|]); assumption|].
  rewrite E1. cbn [option_bind snd].
  rewrite (arrow_same_ok t junk c2 "==" Z.eqb (tmin t) (noCenter se) im _ eq_refl H1 HTy).
  destruct (arrow_run t junk (c2 O) Z.eqb (fun a u => a = u) (tmin t) (noCenter se) im A1 Z.eqb_eq) as (A2 & E2 & HA2 & HA2').
  { pose proof HA1 as (S1 & W1 & _). repeat (split; [first [assumption|reflexivity]|]); assumption. }
  rewrite E2. cbn [option_bind snd].
  assert (HB1 : forall x y z a, pixel_is im x y z a -> ~ R a bv). { intros x y z a (_ & Pa). apply Hbv. unfold typed_img in HT. rewrite Forall_forall in HT. apply HT. eapply rd_In. exact Pa. }
  destruct (scan_all t se im R Hu W Hs HP HPl HSy HB HR A1 A2 bv (tmin t) HA1 HA1' HA2 HA2' HB1 fuel Hf (Z.to_nat (dw (sz im) * dh (sz im) * dd (sz im))) 0 (pw1 (fun a => px_equ t a 0) A1)) as (o2 & Es & F2).
  - assert (0 <= dw (sz im) * dh (sz im) * dd (sz im)) by (destruct W as (_ & <-); lia). lia.
  - lia.
  - eapply finv_first with (bv1 := bv) (bv2 := tmin t); eassumption.
  - assert (Ez : zseq (pixelCount (sz im)) = map (fun i => 0 + Z.of_nat i) (seq 0 (Z.to_nat (dw (sz im) * dh (sz im) * dd (sz im))))).
    { unfold zseq, pixelCount, lineCount. f_equal. f_equal. f_equal. ring. }
    rewrite Ez, Es. cbn [fuel_bind]. eexists. split; [reflexivity|]. eapply finv_done; eassumption.
Qed.

Lemma fastMinima_ok fuel t junk c1 c2 se im out : fast_ok fuel t c1 c2 se im out ->
  exists res, fastMinima fuel t junk c1 c2 se false im out = Some (Some (1, res)) /\ marks t (fun x y z v => ~ can_descend se im x y z v) im res.
Proof.
  intros H. destruct (fastExtrema_ok fuel t junk c1 c2 se ">" Z.gtb (tmax t) (fun a u => u < a) im out H eq_refl) as (res & E & S & Wr & M); [intros a u; lia|intros a; lia|unfold inty; intros a; lia|].
  exists res. split; [exact E|]. split; [exact S|]. split; [exact Wr|]. intros x y z v P.
  assert (B : beyond se im (fun a u => u < a) v x y z <-> can_descend se im x y z v) by (split; apply joined_impl; try (intros; lia); auto).
  destruct (M x y z v P) as [(X & Y)|(X & Y)]; [left|right]; (split; [|exact Y]); tauto.
Qed.
Lemma fastMaxima_ok fuel t junk c1 c2 se im out : fast_ok fuel t c1 c2 se im out ->
  exists res, fastMaxima fuel t junk c1 c2 se false im out = Some (Some (1, res)) /\ marks t (fun x y z v => ~ can_ascend se im x y z v) im res.
Proof.
  intros H. destruct (fastExtrema_ok fuel t junk c1 c2 se "<" Z.ltb (tmin t) (fun a u => a < u) im out H eq_refl) as (res & E & S & Wr & M); [intros a u; lia|intros a; lia|unfold inty; intros a; lia|].
  exists res. split; [exact E|]. split; [exact S|]. split; [exact Wr|]. intros x y z v P.
  assert (B : beyond se im (fun a u => a < u) v x y z <-> can_ascend se im x y z v) by (split; apply joined_impl; try (intros; lia); auto).
  destruct (M x y z v P) as [(X & Y)|(X & Y)]; [left|right]; (split; [|exact Y]); tauto.
Qed.
