(** The propagation of labels and the scan of the image. *)
From Verif Require Export Spec.LabelSpec Proofs.NeighborFacts Proofs.BuildProofs.

(** ** Neighbours *)
Lemma label_coords_ok s x y z : int_sized s -> inside s x y z -> label_coords s (voxel_offset (dw s) (dh s) x y z) = Some (x, y, z).
Proof.
  intros Hs Hi. pose proof Hs as (Bw & Bh & Bd & Bn). pose proof Hi as (Ix & Iy & Iz). pose proof (inside_range _ _ _ _ Hi) as R.
  unfold label_coords. cbv zeta. assert (1 <= dd s) by lia. assert (0 < dh s * dw s) by nia. assert (dh s * dw s <= dw s * dh s * dd s) by nia.
  assert (to_size (dh s * dw s) = dh s * dw s) as -> by (unfold to_size; apply Z.mod_small; lia).
  destruct ((dh s * dw s =? 0) || (dw s =? 0)) eqn:E; [lia|].
  assert (Ev : voxel_offset (dw s) (dh s) x y z = x + y * dw s + z * dw s * dh s) by (unfold voxel_offset; ring). rewrite Ev in *.
  assert (0 <= y * dw s) by nia. assert (y * dw s + dw s <= dh s * dw s) by nia.
  assert (Ez : (x + y * dw s + z * dw s * dh s) / (dh s * dw s) = z) by (symmetry; apply Z.div_unique with (x + y * dw s); [left; nia|ring]).
  rewrite Ez, (to_int_id z) by lia.
  replace (x + y * dw s + z * dw s * dh s - z * (dh s * dw s)) with (x + y * dw s) by ring.
  assert (to_size (x + y * dw s) = x + y * dw s) as -> by (unfold to_size; apply Z.mod_small; nia).
  assert (Ey : (x + y * dw s) / dw s = y) by (symmetry; apply Z.div_unique with x; [left; lia|ring]).
  rewrite Ey, (to_int_id y) by lia.
  replace (x + y * dw s + z * dw s * dh s - y * dw s - z * (dh s * dw s)) with x by ring.
  assert (to_size x = x) as -> by (unfold to_size; apply Z.mod_small; lia). rewrite (to_int_id x) by lia. reflexivity.
Qed.

Definition lnbs (se : strelt) (s : dims) (off : Z) (xyz : Z * Z * Z) : list Z :=
  flat_map (fun p => match label_nb se s off xyz p with Some o => [o] | None => [] end) (se_points se).

Lemma label_nb_spec se s x0 y0 z0 p : int_sized s -> inside s x0 y0 z0 ->
  Z.abs (px_ p) < 2 ^ 30 -> Z.abs (py_ p) < 2 ^ 30 -> Z.abs (pz_ p) < 2 ^ 30 ->
  let x := x0 + px_ p + hex_shift se y0 (y0 + py_ p) in let y := y0 + py_ p in let z := z0 + pz_ p in
  (inside s x y z -> voxel_offset (dw s) (dh s) x y z <> voxel_offset (dw s) (dh s) x0 y0 z0 ->
     label_nb se s (voxel_offset (dw s) (dh s) x0 y0 z0) (x0, y0, z0) p = Some (voxel_offset (dw s) (dh s) x y z)) /\
  (~ inside s x y z \/ voxel_offset (dw s) (dh s) x y z = voxel_offset (dw s) (dh s) x0 y0 z0 ->
     label_nb se s (voxel_offset (dw s) (dh s) x0 y0 z0) (x0, y0, z0) p = None).
Proof.
  intros Hs H0 Hx Hy Hz x y z. pose proof Hs as (Bw & Bh & Bd & Bn). pose proof H0 as (Ix & Iy & Iz).
  unfold label_nb. rewrite odd_mod2. rewrite (to_int_id (x0 + px_ p)), (to_int_id (y0 + py_ p)), (to_int_id (z0 + pz_ p)) by lia.
  assert (Es : bit (se_odd se && Z.odd y0 && oddb (y0 + py_ p + 1)) = hex_shift se y0 (y0 + py_ p)).
  { unfold hex_shift. rewrite oddb_odd, Z.odd_add. change (Z.odd 1) with true. rewrite <- (Z.negb_even (y0 + py_ p)).
    destruct (se_odd se && Z.odd y0); [|reflexivity]. destruct (Z.even (y0 + py_ p)); reflexivity. }
  rewrite Es. fold x y z. unfold in_bounds. rewrite (to_int_id (dw s)), (to_int_id (dh s)), (to_int_id (dd s)) by lia.
  replace (x + y * dw s + z * dh s * dw s) with (voxel_offset (dw s) (dh s) x y z) by (unfold voxel_offset; ring).
  split.
  - intros HI HN. pose proof HI as (Jx & Jy & Jz). pose proof (inside_range _ _ _ _ HI) as R1.
    assert (to_size (voxel_offset (dw s) (dh s) x y z) = voxel_offset (dw s) (dh s) x y z) as -> by (unfold to_size; apply Z.mod_small; lia).
    match goal with |- (if ?c then _ else _) = _ => replace c with true by lia end. reflexivity.
  - intros [HN|HE].
    + match goal with |- (if ?c then _ else _) = _ => replace c with false by (unfold inside in HN; lia) end. reflexivity.
    + pose proof (inside_range _ _ _ _ H0) as R0.
      assert (to_size (voxel_offset (dw s) (dh s) x y z) = voxel_offset (dw s) (dh s) x y z) as -> by (unfold to_size; apply Z.mod_small; lia).
      rewrite HE, Z.eqb_refl. reflexivity.
Qed.

Lemma lnbs_spec se s cur : int_sized s -> int_points se -> planar se s -> 0 <= cur < dw s * dh s * dd s ->
  exists xyz, label_coords s cur = Some xyz /\
    (forall nb, In nb (lnbs se s cur xyz) -> 0 <= nb < dw s * dh s * dd s /\ covers se s nb cur) /\
    (forall nb, covers se s nb cur -> nb = cur \/ In nb (lnbs se s cur xyz)).
Proof.
  intros Hs Hp HP Hc. destruct (voxel_exists s cur (int_small _ Hs) Hc) as (x0 & y0 & z0 & I0 & E0).
  exists (x0, y0, z0). split; [rewrite E0; apply label_coords_ok; assumption|]. split.
  - intros nb Hn. apply in_flat_map in Hn as (p & Hip & Hn).
    destruct (Hp p Hip) as (B1 & B2 & B3). destruct (label_nb_spec se s x0 y0 z0 p Hs I0 B1 B2 B3) as [S1 S2].
    cbv zeta in S1, S2. set (x := x0 + px_ p + hex_shift se y0 (y0 + py_ p)) in *. rewrite E0 in Hn.
    assert (D : inside s x (y0 + py_ p) (z0 + pz_ p) \/ ~ inside s x (y0 + py_ p) (z0 + pz_ p)) by (unfold inside; lia).
    destruct D as [D|D]; [|rewrite (S2 (or_introl D)) in Hn; contradiction].
    destruct (Z.eq_dec (voxel_offset (dw s) (dh s) x (y0 + py_ p) (z0 + pz_ p)) (voxel_offset (dw s) (dh s) x0 y0 z0)) as [E|E]; [rewrite (S2 (or_intror E)) in Hn; contradiction|].
    rewrite (S1 D E) in Hn. destruct Hn as [<-|[]].
    split; [apply inside_range; exact D|]. exists x, (y0 + py_ p), (z0 + pz_ p), x0, y0, z0.
    split; [exact D|]. split; [exact I0|]. split; [reflexivity|]. split; [exact E0|]. apply (sees_shift se s); auto. exists p. unfold x. auto.
  - intros nb (x & y & z & x' & y' & z' & I & I' & En & Ec & Hse). rewrite E0 in Ec.
    destruct (voxel_inj s _ _ _ _ _ _ I0 I' Ec) as (<- & <- & <-).
    apply (sees_shift se s) in Hse; auto. destruct Hse as (p & Hip & Ex & Ey & Ez).
    destruct (Z.eq_dec nb cur) as [E|E]; [left; exact E|right]. apply in_flat_map. exists p. split; [exact Hip|].
    destruct (Hp p Hip) as (B1 & B2 & B3). destruct (label_nb_spec se s x0 y0 z0 p Hs I0 B1 B2 B3) as [S1 _]. cbv zeta in S1.
    rewrite <- Ey, <- Ex, <- Ez in S1. rewrite E0, S1; [left; auto|exact I|congruence].
Qed.

Lemma count_lab_up lab l i : 0 <= i < Z.of_nat (length l) -> znth 0 l i <> lab -> count lab (upd l i lab) = S (count lab l).
Proof.
  intros Hi. rewrite upd_upd_nat by exact Hi. rewrite znth_nth by lia. assert (H : (Z.to_nat i < length l)%nat) by lia. revert H. generalize (Z.to_nat i) as n. clear.
  induction l as [|a l IH]; intros n Hn Hne; cbn in *; [lia|]. destruct n as [|n]; cbn in *.
  - unfold count. cbn. rewrite Z.eqb_refl. destruct (Z.eqb_spec a lab); [contradiction|]. reflexivity.
  - unfold count in *. cbn. specialize (IH n ltac:(lia) Hne). destruct (a =? lab); cbn [length]; rewrite IH; reflexivity.
Qed.

(** ** Propagation *)
Section Propagation.
Context (cmp : Z -> Z -> bool) (se : strelt) (s : dims) (px : list Z).
Context (Hs : int_sized s) (Hp : int_points se) (HP : planar se s).
Notation N := (dw s * dh s * dd s).
Context (Hl : Z.of_nat (length px) = N).
Local Notation "l # i" := (znth 0 l i) (at level 9).

(** [q] gets the label of [p]. *)
Definition lstep (p q : Z) : Prop := covers se s q p /\ cmp (px # q) (px # p) = true.
Inductive conn (p : Z) : Z -> Prop :=
| conn_self : conn p p
| conn_next q r : conn p q -> lstep q r -> conn p r.

Lemma lcovers_range nb p : covers se s nb p -> 0 <= nb < N /\ 0 <= p < N.
Proof. intros (x & y & z & x' & y' & z' & I & I' & -> & -> & _). split; apply inside_range; assumption. Qed.

Lemma conn_range p q : 0 <= p < N -> conn p q -> 0 <= q < N.
Proof. intros H C. destruct C as [|q r C St]; [exact H|]. apply (lcovers_range r q). apply St. Qed.

Lemma conn_trans p q r : conn p q -> conn q r -> conn p r.
Proof. intros A B. induction B as [|q' r B IH St]; [exact A|]. eapply conn_next; eassumption. Qed.

Lemma conn_sym : (forall p q, lstep p q -> lstep q p) -> forall p q, conn p q -> conn q p.
Proof. intros H p q C. induction C as [|q r C IH St]; [constructor|]. eapply conn_trans; [|exact IH]. eapply conn_next; [constructor|]. apply H. exact St. Qed.

Section One.
Context (c0 lab : Z) (out0 : list Z) (Hc0 : 0 <= c0 < N) (Hl0 : Z.of_nat (length out0) = N).
Context (Hfree : forall p, conn c0 p -> out0 # p <> lab).

Definition linv (out queue : list Z) : Prop :=
  Z.of_nat (length out) = N /\
  (forall p, 0 <= p < N -> out # p = out0 # p \/ (conn c0 p /\ out # p = lab)) /\
  (forall p, In p queue -> 0 <= p < N /\ conn c0 p /\ out # p = lab) /\
  out # c0 = lab /\
  (forall p, 0 <= p < N -> conn c0 p -> out # p = lab -> In p queue \/ forall q, lstep p q -> out # q = lab).

Lemma lscan cur fuel l : 0 <= cur < N -> conn c0 cur -> (forall nb, In nb l -> 0 <= nb < N /\ covers se s nb cur) -> forall out queue, linv out queue ->
  (length queue + length px <= fuel + count lab out)%nat ->
  exists out' add, fold_opt (fun (st : list Z * list Z) nb => option_bind (rd (fst st) nb) (fun o => if o =? lab then Some st else option_bind (rd px nb) (fun v =>
      if cmp v (px # cur) then option_bind (wr (fst st) nb lab) (fun out => Some (out, snd st ++ [nb])) else Some st))) l (out, queue) = Some (out', queue ++ add) /\
    linv out' (queue ++ add) /\ (length (queue ++ add) + length px <= fuel + count lab out')%nat /\
    (forall p, 0 <= p < N -> out # p = lab -> out' # p = lab) /\ (forall nb, In nb l -> cmp (px # nb) (px # cur) = true -> out' # nb = lab).
Proof.
  intros Hc Cc. induction l as [|nb l IH]; intros Hin out queue I Hf.
  { exists out, []. rewrite app_nil_r. cbn [fold_opt]. split; [reflexivity|]. split; [exact I|]. split; [exact Hf|]. split; [auto|]. intros nb []. }
  cbn [fold_opt fst snd]. destruct (Hin nb (or_introl eq_refl)) as (Rn & Cn). pose proof I as (L & A & Q & O & K).
  rewrite (rd_znth 0 out nb) by lia. cbn [option_bind].
  destruct (Z.eqb_spec (out # nb) lab) as [E|E].
  { cbn [option_bind]. destruct (IH (fun n H => Hin n (or_intror H)) out queue I Hf) as (out' & add & F & I' & M & Mono & Cov).
    exists out', add. split; [exact F|]. split; [exact I'|]. split; [exact M|]. split; [exact Mono|].
    intros n [<-|Hn] Hcmp; [apply Mono; assumption|auto]. }
  rewrite (rd_znth 0 px nb) by lia. cbn [option_bind].
  destruct (cmp (px # nb) (px # cur)) eqn:Ec.
  2:{ cbn [option_bind]. destruct (IH (fun n H => Hin n (or_intror H)) out queue I Hf) as (out' & add & F & I' & M & Mono & Cov).
    exists out', add. split; [exact F|]. split; [exact I'|]. split; [exact M|]. split; [exact Mono|].
    intros n [<-|Hn] Hcmp; [congruence|auto]. }
  rewrite wr_upd by lia. cbn [option_bind].
  assert (Cnb : conn c0 nb) by (eapply conn_next; [exact Cc|split; assumption]).
  assert (I2 : linv (upd out nb lab) (queue ++ [nb])).
  { assert (X : forall p, (upd out nb lab) # p = if p =? nb then lab else out # p) by (intros p; apply znth_upd'; lia).
    split; [rewrite upd_length; exact L|]. split; [|split; [|split]].
    - intros p Hp'. rewrite X. destruct (Z.eqb_spec p nb) as [->|]; [right; auto|auto].
    - intros p Hp'. rewrite X. apply in_app_iff in Hp' as [Hp'|[<-|[]]]; [|rewrite Z.eqb_refl; auto].
      destruct (Q p Hp') as (? & ? & ?). destruct (p =? nb); auto.
    - rewrite X. destruct (c0 =? nb); auto.
    - intros p Hp' C. rewrite X. destruct (Z.eqb_spec p nb) as [->|Hne]; intros Hv; [left; apply in_app_iff; right; left; reflexivity|].
      destruct (K p Hp' C Hv) as [H|H]; [left; apply in_app_iff; auto|right]. intros q Hq. rewrite X. destruct (q =? nb); auto. }
  destruct (IH (fun n H => Hin n (or_intror H)) _ _ I2) as (out' & add & F & I' & M & Mono & Cov).
  { rewrite app_length. cbn [length]. rewrite count_lab_up by (auto; lia). lia. }
  exists out', (nb :: add). rewrite <- app_assoc in F, I', M. split; [exact F|]. split; [exact I'|]. split; [exact M|].
  assert (X : forall p, (upd out nb lab) # p = if p =? nb then lab else out # p) by (intros p; apply znth_upd'; lia).
  split; [intros p Hp' Hv; apply Mono; [exact Hp'|rewrite X; destruct (p =? nb); auto]|].
  intros n [<-|Hn] Hcmp; [apply Mono; [exact Rn|rewrite X, Z.eqb_refl; reflexivity]|auto].
Qed.

Lemma lloop fuel : forall out queue, linv out queue -> (length queue + length px <= fuel + count lab out)%nat ->
  exists out', label_loop fuel cmp se s px lab out queue = Some (Some out') /\ linv out' [].
Proof.
  induction fuel as [|fuel IH]; intros out queue I Hf.
  { pose proof I as (L & _). pose proof (count_le lab out). assert (length out = length px) as E by lia.
    destruct queue as [|cur queue]; [exists out; split; [reflexivity|exact I]|]. cbn [length] in Hf. lia. }
  destruct queue as [|cur queue]; [exists out; split; [reflexivity|exact I]|]. cbn [label_loop].
  pose proof I as (L & A & Q & O & K). destruct (Q cur (or_introl eq_refl)) as (Rc & Cc & Vc).
  rewrite (rd_znth 0 px cur) by lia. cbn [option_bind].
  destruct (lnbs_spec se s cur Hs Hp HP Rc) as (xyz & -> & Hin & Hcov). cbn [option_bind].
  assert (Efold : forall st, fold_opt (label_point cmp se s px lab cur xyz (px # cur)) (se_points se) st =
     fold_opt (fun (st : list Z * list Z) nb => option_bind (rd (fst st) nb) (fun o => if o =? lab then Some st else option_bind (rd px nb) (fun v =>
      if cmp v (px # cur) then option_bind (wr (fst st) nb lab) (fun out => Some (out, snd st ++ [nb])) else Some st))) (lnbs se s cur xyz) st).
  { unfold lnbs. induction (se_points se) as [|p l IHl]; intros st; [reflexivity|]. cbn [fold_opt flat_map]. rewrite fold_opt_app. unfold label_point at 1.
    destruct (label_nb se s cur xyz p) as [nb|]; cbn [fold_opt option_bind]; [|apply IHl].
    match goal with |- match ?u with Some _ => _ | None => _ end = _ => destruct u; [apply IHl|reflexivity] end. }
  rewrite Efold. destruct (lscan cur (S fuel) (lnbs se s cur xyz) Rc Cc Hin out (cur :: queue) I Hf) as (out' & add & -> & I' & M & Mono & Cov). cbn [option_bind fst snd tl app].
  apply IH.
  - destruct I' as (L' & A' & Q' & O' & K'). split; [exact L'|]. split; [exact A'|]. split; [intros p Hp'; apply Q'; right; exact Hp'|]. split; [exact O'|].
    intros p Hp' C Hv. destruct (K' p Hp' C Hv) as [[<-|H]|H]; [|left; exact H|right; exact H].
    right. intros q (Hq1 & Hq2). destruct (Hcov q Hq1) as [->|Hq]; [apply Mono; assumption|]. apply Cov; assumption.
  - cbn [app length] in M. lia.
Qed.

Lemma propagate fuel : (length px <= fuel)%nat ->
  exists out', label_loop fuel cmp se s px lab (upd out0 c0 lab) [c0] = Some (Some out') /\ Z.of_nat (length out') = N /\
    forall p, 0 <= p < N -> (conn c0 p /\ out' # p = lab) \/ (~ conn c0 p /\ out' # p = out0 # p).
Proof.
  intros Hf. assert (X : forall p, (upd out0 c0 lab) # p = if p =? c0 then lab else out0 # p) by (intros p; apply znth_upd'; lia).
  destruct (lloop fuel (upd out0 c0 lab) [c0]) as (out' & E & I).
  - split; [rewrite upd_length; exact Hl0|]. split; [|split; [|split]].
    + intros p Hp'. rewrite X. destruct (Z.eqb_spec p c0) as [->|]; [right; split; [constructor|reflexivity]|auto].
    + intros p [<-|[]]. rewrite X, Z.eqb_refl. split; [exact Hc0|]. split; [constructor|reflexivity].
    + rewrite X, Z.eqb_refl. reflexivity.
    + intros p Hp' C. rewrite X. destruct (Z.eqb_spec p c0) as [->|Hne]; intros Hv; [left; left; reflexivity|]. exfalso. exact (Hfree p C Hv).
  - rewrite count_lab_up; [cbn [length]; lia|lia|]. apply Hfree. constructor.
  - exists out'. split; [exact E|]. destruct I as (L & A & _ & O & K). split; [exact L|].
    assert (Cl : forall p, conn c0 p -> out' # p = lab).
    { intros p C. induction C as [|q r C IH St]; [exact O|]. destruct (K q) as [[]|H]; auto. eapply conn_range; [exact Hc0|exact C]. }
    intros p Hp'. destruct (Z.eq_dec (out' # p) lab) as [Ev|Ev].
    + destruct (A p Hp') as [H|[H1 H2]]; [|left; auto]. right. split; [|exact H]. intros C. apply (Hfree p C). congruence.
    + right. split; [intros C; apply Ev; auto|]. destruct (A p Hp') as [H|[_ H]]; [exact H|contradiction].
Qed.
End One.

(** ** The scan *)
Context (Hsym : forall p q, lstep p q -> lstep q p) (t2 : ity).

Definition lval (k : Z) : Z := if k =? 0 then 0 else cyclic_label t2 k.

Lemma tmax_big : 127 <= tmax t2.
Proof. clear. destruct t2; cbn; lia. Qed.

Lemma cyclic_range k : 1 <= k -> 1 <= cyclic_label t2 k < tmax t2.
Proof. clear. intros H. pose proof tmax_big. unfold cyclic_label. pose proof (Z.mod_pos_bound (k - 1) (tmax t2 - 1)). lia. Qed.

Lemma lval_next k : 0 <= k -> (let l := wrap t2 (lval k + 1) in if l =? tmax t2 then 1 else l) = cyclic_label t2 (k + 1).
Proof.
  clear. intros H. pose proof tmax_big. assert (W : forall v, 0 <= v <= tmax t2 -> wrap t2 v = v).
  { intros v Hv. apply wrap_id. unfold inty. pose proof (inty_min t2) as M. destruct t2; cbn in *; lia. }
  unfold lval. destruct (Z.eqb_spec k 0) as [->|Hk].
  - cbn zeta. change (0 + 1) with 1. rewrite W by lia. unfold cyclic_label. destruct (Z.eqb_spec 1 (tmax t2)); [lia|]. rewrite Z.sub_diag, Z.mod_0_l; lia.
  - pose proof (cyclic_range k ltac:(lia)) as R. cbn zeta. rewrite W by lia. unfold cyclic_label in *. set (m := tmax t2 - 1) in *.
    pose proof (Z.div_mod (k - 1) m ltac:(lia)) as D. pose proof (Z.mod_pos_bound (k - 1) m ltac:(lia)) as B. set (q := (k - 1) / m) in *. set (r := (k - 1) mod m) in *.
    replace (k + 1 - 1) with k by lia. destruct (Z.eqb_spec (1 + r + 1) (tmax t2)) as [E|E].
    + assert (k mod m = 0) as ->; [|reflexivity]. replace k with ((q + 1) * m) by (unfold m in *; nia). apply Z.mod_mul. lia.
    + assert (k mod m = r + 1) as ->; [|lia]. symmetry. apply (Z.mod_unique k m q (r + 1)); [left; lia|lia].
Qed.

Definition sinv (i : Z) (st : lstate) (seeds : list Z) : Prop :=
  Z.of_nat (length (ls_out st)) = N /\ ls_real st = Z.of_nat (length seeds) /\ ls_labels st = lval (Z.of_nat (length seeds)) /\
  (forall c, In c seeds -> 0 <= c < i /\ px # c <> 0) /\ StronglySorted Z.lt seeds /\
  (forall a b c d, rd seeds a = Some c -> rd seeds b = Some d -> conn c d -> a = b) /\
  (forall p, 0 <= p < N -> ((ls_out st) # p = 0 /\ forall c, In c seeds -> ~ conn c p) \/
     (exists a c, rd seeds a = Some c /\ conn c p /\ (ls_out st) # p = cyclic_label t2 (a + 1))) /\
  (forall p, 0 <= p < i -> px # p <> 0 -> exists c, In c seeds /\ conn c p) /\
  (forall c p, In c seeds -> conn c p -> px # p <> 0 -> c <= p).

Lemma label_step fuel i st seeds : (length px <= fuel)%nat -> 0 <= i < N -> sinv i st seeds ->
  exists st' seeds', option_bind (rd (ls_out st) i) (fun v => if v =? 0 then label_pixel fuel t2 cmp se s px st i else Some (Some st)) = Some (Some st') /\ sinv (i + 1) st' seeds'.
Proof.
  intros Hf Hi (L & Re & La & Sd & So & Pw & Ev & Co & Fi). rewrite (rd_znth 0 (ls_out st) i) by lia. cbn [option_bind].
  assert (Skip : (px # i = 0 \/ (ls_out st) # i <> 0) -> sinv (i + 1) st seeds).
  { intros H. split; [exact L|]. split; [exact Re|]. split; [exact La|]. split; [intros c Hc; destruct (Sd c Hc); split; [lia|assumption]|]. split; [exact So|]. split; [exact Pw|]. split; [exact Ev|]. split; [|exact Fi].
    intros p Hp' Hz. destruct (Z.eq_dec p i) as [->|]; [|apply Co; [lia|exact Hz]]. destruct H as [H|H]; [contradiction|].
    destruct (Ev i Hi) as [[H0 _]|(a & c & Hr & Hc & _)]; [contradiction|]. exists c. split; [eapply rd_In; exact Hr|exact Hc]. }
  destruct (Z.eqb_spec ((ls_out st) # i) 0) as [Ez|Ez]; [|exists st, seeds; split; [reflexivity|apply Skip; auto]].
  unfold label_pixel. rewrite (rd_znth 0 px i), (rd_znth 0 (ls_out st) i) by lia. cbn [option_bind]. rewrite Ez. cbn [Z.eqb negb].
  destruct (Z.eqb_spec (px # i) 0) as [Ep|Ep]; cbn [orb]; [exists st, seeds; split; [reflexivity|apply Skip; auto]|].
  rewrite La. pose proof (lval_next (Z.of_nat (length seeds)) ltac:(lia)) as EL. cbv zeta in EL. rewrite EL.
  set (lab := cyclic_label t2 (Z.of_nat (length seeds) + 1)) in *. assert (Hlab : 1 <= lab) by (apply cyclic_range; lia).
  rewrite wr_upd by lia. cbn [option_bind].
  assert (Free : forall c, In c seeds -> ~ conn c i).
  { destruct (Ev i Hi) as [[_ H]|(a & c & Hr & _ & H)]; [exact H|]. exfalso. pose proof (rd_Some_range _ _ _ Hr). pose proof (cyclic_range (a + 1)). lia. }
  assert (Zero : forall p, conn i p -> (ls_out st) # p = 0).
  { intros p C. pose proof (conn_range i p Hi C) as Rp. destruct (Ev p Rp) as [[H _]|(a & c & Hr & Hc & _)]; [exact H|]. exfalso.
    apply (Free c); [eapply rd_In; exact Hr|]. eapply conn_trans; [exact Hc|]. apply conn_sym; assumption. }
  destruct (propagate i lab (ls_out st) Hi L) with (fuel := fuel) as (out' & -> & L' & Res); [|exact Hf|].
  { intros p C. rewrite (Zero p C). lia. }
  cbn [fuel_bind]. eexists _, (seeds ++ [i]). split; [reflexivity|]. unfold sinv. cbn [ls_out ls_labels ls_real].
  split; [exact L'|]. rewrite app_length. cbn [length].
  assert (Nd : Z.of_nat (length seeds) < N).
  { (* distinct seeds below i *) assert (incl seeds (zseq i)) as Hinc. { intros c Hc. apply zseq_In. destruct (Sd c Hc). lia. }
    assert (NoDup seeds) as ND. { clear - So. induction So as [|c l So IH F]; constructor; [|exact IH]. intros Hc. rewrite Forall_forall in F. specialize (F c Hc). lia. }
    pose proof (NoDup_incl_length ND Hinc) as LE. rewrite zseq_length in LE. lia. }
  pose proof Hs as (Bw & Bh & Bd & Bn).
  split; [rewrite Re; unfold to_size; rewrite Z.mod_small; lia|]. split; [unfold lval; destruct (Z.eqb_spec (Z.of_nat (length seeds + 1)) 0); [lia|]; unfold lab; f_equal; lia|].
  split; [intros c Hc; apply in_app_iff in Hc as [Hc|[<-|[]]]; [destruct (Sd c Hc); split; [lia|assumption]|split; [lia|exact Ep]]|].
  split. { clear - So Sd. induction So as [|c l So IH F]; cbn; [constructor; constructor|]. constructor.
    - apply IH. intros c' Hc'. apply Sd. right. exact Hc'.
    - apply Forall_app. split; [exact F|]. constructor; [|constructor]. destruct (Sd c (or_introl eq_refl)). lia. }
  assert (Cases : forall a c, rd (seeds ++ [i]) a = Some c -> (rd seeds a = Some c /\ In c seeds) \/ (a = Z.of_nat (length seeds) /\ c = i)).
  { intros a c H. rewrite rd_app in H. destruct (a <? Z.of_nat (length seeds)) eqn:Ea; [left; split; [exact H|eapply rd_In; exact H]|].
    pose proof (rd_Some_range _ _ _ H) as R. cbn [length] in R. assert (a = Z.of_nat (length seeds)) as -> by lia. right. split; [reflexivity|].
    rewrite Z.sub_diag in H. cbn in H. injection H as <-. reflexivity. }
  split. { intros a b c d Ha Hb C. destruct (Cases a c Ha) as [[Ha' Ia]|[-> ->]], (Cases b d Hb) as [[Hb' Ib]|[-> ->]].
    - eapply Pw; eassumption.
    - exfalso. exact (Free c Ia C).
    - exfalso. apply (Free d Ib). apply conn_sym; assumption.
    - reflexivity. }
  assert (Old : forall a c, rd seeds a = Some c -> rd (seeds ++ [i]) a = Some c).
  { intros a c H. rewrite rd_app. pose proof (rd_Some_range _ _ _ H). replace (a <? Z.of_nat (length seeds)) with true by lia. exact H. }
  assert (New : rd (seeds ++ [i]) (Z.of_nat (length seeds)) = Some i).
  { rewrite rd_app. rewrite Z.ltb_irrefl, Z.sub_diag. reflexivity. }
  split; [|split].
  - intros p Hp'. destruct (Res p Hp') as [[C V]|[C V]].
    + right. exists (Z.of_nat (length seeds)), i. split; [exact New|]. split; [exact C|exact V].
    + destruct (Ev p Hp') as [[V0 H]|(a & c & Hr & Hc & V0)].
      * left. split; [congruence|]. intros c Hc. apply in_app_iff in Hc as [Hc|[<-|[]]]; [auto|exact C].
      * right. exists a, c. split; [apply Old; exact Hr|]. split; [exact Hc|congruence].
  - intros p Hp' Hz. destruct (Z.eq_dec p i) as [->|]; [exists i; split; [apply in_app_iff; right; left; reflexivity|constructor]|].
    destruct (Co p) as (c & Hc & C); [lia|exact Hz|]. exists c. split; [apply in_app_iff; auto|exact C].
  - intros c p Hc C Hz. apply in_app_iff in Hc as [Hc|[<-|[]]]; [apply Fi; assumption|]. pose proof (conn_range i p Hi C) as Rp.
    destruct (Z_le_gt_dec i p) as [|Hlt]; [assumption|]. exfalso. destruct (Co p) as (c' & Hc' & C'); [lia|exact Hz|].
    apply (Free c' Hc'). eapply conn_trans; [exact C'|]. apply conn_sym; assumption.
Qed.

Lemma label_scan fuel : (length px <= fuel)%nat ->
  exists st seeds, label_image fuel t2 cmp se s px (LS (map (fun _ => 0) px) 0 0) = Some (Some st) /\ sinv N st seeds.
Proof.
  intros Hf. pose proof Hs as (Bw & Bh & Bd & Bn). unfold label_image.
  assert (to_size (dd s * dh s * dw s) = N) as -> by (unfold to_size; rewrite Z.mod_small; nia).
  assert (K : forall k, (k <= length px)%nat -> exists st seeds, fold_left (fun o i => fuel_bind o (fun st => option_bind (rd (ls_out st) i) (fun v =>
     if v =? 0 then label_pixel fuel t2 cmp se s px st i else Some (Some st)))) (zseq (Z.of_nat k)) (Some (Some (LS (map (fun _ => 0) px) 0 0))) = Some (Some st) /\ sinv (Z.of_nat k) st seeds).
  { induction k as [|k IH]; intros Hk.
    - eexists _, []. split; [reflexivity|]. unfold sinv. cbn [ls_out ls_labels ls_real]. split; [rewrite map_length; exact Hl|]. split; [reflexivity|]. split; [reflexivity|]. split; [intros c []|]. split; [constructor|].
      split; [intros a b c d H; pose proof (rd_Some_range _ _ _ H) as R; cbn in R; lia|]. split; [|split; [intros p Hp'; cbn in Hp'; lia|intros c p []]].
      intros p Hp'. left. split; [|intros c []]. assert (H : rd (map (fun _ => 0) px) p = Some 0) by (rewrite rd_map, (rd_znth 0 px p) by lia; reflexivity).
      unfold znth. rewrite H. reflexivity.
    - destruct (IH ltac:(lia)) as (st & seeds & E & I). destruct (label_step fuel (Z.of_nat k) st seeds Hf) as (st' & seeds' & E' & I'); [lia|exact I|].
      exists st', seeds'. split; [|replace (Z.of_nat (S k)) with (Z.of_nat k + 1) by lia; exact I'].
      assert (zseq (Z.of_nat (S k)) = zseq (Z.of_nat k) ++ [Z.of_nat k]) as ->. { unfold zseq. rewrite !Nat2Z.id, seq_S, map_app. reflexivity. }
      rewrite fold_left_app, E. cbn [fold_left fuel_bind]. exact E'. }
  destruct (K (length px) ltac:(lia)) as (st & seeds & E & I). rewrite Hl in E, I. eauto.
Qed.
End Propagation.
