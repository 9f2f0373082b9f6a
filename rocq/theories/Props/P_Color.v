(** C114 to C117: colour pixels, lines and channels. *)
From Verif Require Import Proofs.ColorProofs2.
Local Open Scope Z_scope.

(** C114: == decides equality; <=, >=, <, > compare channel by channel; <= is a partial order. *)
Theorem C114_comparisons : forall a b, length a = length b ->
  (mc_eq a b = true <-> a = b) /\
  (mc_le a b = true <-> cle a b) /\ (mc_ge a b = true <-> cle b a) /\ (mc_lt a b = true <-> clt a b) /\ (mc_gt a b = true <-> clt b a).
Proof. intros a b L. split; [apply mc_eq_ok, L|]. split; [apply mc_le_ok, L|]. split; [apply mc_ge_ok, L|]. split; [apply mc_lt_ok, L|apply mc_gt_ok, L]. Qed.
Print Assumptions C114_comparisons.

Theorem C114_order : forall a b c, length a = length b -> length b = length c ->
  mc_le a a = true /\ (mc_le a b = true -> mc_le b a = true -> a = b) /\ (mc_le a b = true -> mc_le b c = true -> mc_le a c = true).
Proof.
  intros a b c L1 L2. rewrite !mc_le_ok by congruence. split; [apply cle_refl|]. split; [apply cle_anti|apply cle_trans].
Qed.
Print Assumptions C114_order.

(** != is not the negation of ==: it asks all the channels to differ. *)
Theorem C114_ne_refuted : ~ (forall a b, length a = length b -> mc_ne a b = negb (mc_eq a b)).
Proof. intros H. specialize (H [1; 2; 3] [1; 2; 4] eq_refl). discriminate. Qed.
Print Assumptions C114_ne_refuted.
Theorem C114_ne_partial : forall a b, length a = length b ->
  (mc_ne a b = true <-> Forall2 (fun x y => x <> y) a b) /\ (a <> [] -> mc_ne a b = true -> mc_eq a b = false).
Proof.
  intros a b L. split; [apply mc_ne_ok, L|]. intros N H. apply (mc_ne_ok a b L) in H. destruct (mc_eq a b) eqn:E; [|reflexivity]. apply (mc_eq_ok a b L) in E. subst b.
  inversion H; subst; congruence.
Qed.
Print Assumptions C114_ne_partial.

(** The order is not total, and < is not <= without equality. *)
Theorem C114_total_refuted : ~ (forall a b, length a = length b -> mc_le a b = true \/ mc_le b a = true).
Proof. intros H. destruct (H [1; 2; 3] [3; 2; 1] eq_refl); discriminate. Qed.
Print Assumptions C114_total_refuted.
Theorem C114_strict_refuted : ~ (forall a b, length a = length b -> mc_le a b = true -> a <> b -> mc_lt a b = true).
Proof. intros H. specialize (H [1; 2; 3] [1; 2; 4] eq_refl eq_refl ltac:(discriminate)). discriminate. Qed.
Print Assumptions C114_strict_refuted.

(** A number is converted to a channel by != and not by ==: the first sees 256 as 0. *)
Theorem C114_number_refuted : ~ (forall c v, Forall (inty UINT8) c -> (forall u, In u c -> u <> v) -> mc_ne_int UINT8 c v = true).
Proof.
  intros H. specialize (H [0; 0; 0] 256). assert (N : mc_ne_int UINT8 [0; 0; 0] 256 = false) by reflexivity. rewrite N in H. enough (false = true) by discriminate. apply H.
  - repeat constructor; cbn; lia.
  - intros u Hu. cbn in Hu. lia.
Qed.
Print Assumptions C114_number_refuted.
Theorem C114_number_partial : forall t c v, inty t v -> (mc_eq_int c v = true <-> forall u, In u c -> u = v) /\ (mc_ne_int t c v = true <-> forall u, In u c -> u <> v).
Proof.
  intros t c v Hv. unfold mc_eq_int, mc_ne_int. rewrite (wrap_id t v Hv), mc_eq_ok, mc_ne_ok by (rewrite repeat_length; reflexivity). split.
  - split; [intros E u Hu; rewrite E in Hu; apply (repeat_spec _ _ _ Hu)|]. intros H. induction c as [|u c IH]; cbn; [reflexivity|]. f_equal; [apply H; left; reflexivity|apply IH; intros w Hw; apply H; right; exact Hw].
  - induction c as [|u c IH]; cbn.
    + split; [intros _ u []|constructor].
    + split.
      * intros H w [<-|Hw]; inversion H; subst; [assumption|]. apply (proj1 IH); assumption.
      * intros H. constructor; [apply H; auto|]. apply IH. intros w Hw. apply H. auto.
Qed.
Print Assumptions C114_number_partial.

(** The generic supremum of two pixels, [a > b ? a : b], is a supremum for the comparable colours only. *)
Theorem C114_sup_refuted : ~ (forall a b, length a = length b -> supremum a b (mc_sup a b)).
Proof.
  intros H. destruct (H [5; 1; 1] [1; 5; 1] eq_refl) as (A & _). assert (E : mc_sup [5; 1; 1] [1; 5; 1] = [1; 5; 1]) by reflexivity. rewrite E in A. inversion A; subst. lia.
Qed.
Print Assumptions C114_sup_refuted.
Theorem C114_sup_partial : forall a b, cle a b \/ clt b a -> supremum a b (mc_sup a b).
Proof.
  intros a b H. assert (L : length a = length b) by (destruct H as [H|H]; [apply cle_length, H|symmetry; apply cle_length, clt_cle, H]).
  unfold mc_sup. destruct (mc_gt a b) eqn:E.
  - apply (mc_gt_ok a b L) in E. apply supremum_comm, sup_of_cle, clt_cle, E.
  - destruct H as [H|H]; [apply sup_of_cle, H|]. apply (mc_gt_ok a b L) in H. congruence.
Qed.
Print Assumptions C114_sup_partial.

Example C114_case : mc_eq [1; 2; 3] [1; 2; 3] = true /\ mc_le [1; 2; 3] [1; 5; 4] = true /\ mc_sup [9; 8; 7] [1; 2; 3] = [9; 8; 7] /\ clt [1; 2; 3] [9; 8; 7] /\ mc_ne [1; 2; 3] [1; 2; 4] = false /\ mc_eq [1; 2; 3] [1; 2; 4] = false.
Proof. repeat split. repeat constructor; lia. Qed.

(** C115: a line advanced carefully points where a pointer would: item [i] designates offset [journey + i] of each channel. *)
Theorem C115_walk_partial : forall n os i, careful false os -> 0 <= i -> journey os + i < 2 ^ 32 ->
  refs (carr_item (fold_left run_cop os (carr_new n)) i) = repeat (journey os + i) n /\
  carr_minus (fold_left run_cop os (carr_new (S n))) (carr_new (S n)) = journey os.
Proof.
  intros n os i C Hi L.
  assert (A : forall m, exists b q, fold_left run_cop os (carr_new m) = CArr (repeat b m) q /\ 0 <= b /\ 0 <= q /\ b + q = journey os).
  { intros m. destruct (walk_ok os false 0 0 (repeat 0 m) C ltac:(auto) ltac:(lia) ltac:(lia) ltac:(lia)) as (b & q & E & Hb & Hq & S). exists b, q. split; [|repeat split; lia].
    unfold carr_new. rewrite <- (map_id (repeat 0 m)) at 1. rewrite <- (map_ext (fun p => p + 0) (fun p => p)) by (intros; lia). rewrite E. f_equal. clear. induction m; cbn; [reflexivity|]. f_equal. exact IHm. }
  split.
  - destruct (A n) as (b & q & -> & Hb & Hq & S). unfold carr_item. cbn [refs ptrs cidx]. rewrite u32_id by lia. replace (journey os + i) with (b + (q + i)) by lia. clear. induction n; cbn; [reflexivity|]. f_equal. exact IHn.
  - destruct (A (S n)) as (b & q & -> & Hb & Hq & S). unfold carr_minus. cbn. lia.
Qed.
Print Assumptions C115_walk_partial.

(** [p + dp] after [p++] counts the steps twice. *)
Theorem C115_plus_after_steps : forall n (k : nat) dp, 0 <= dp -> Z.of_nat k + dp < 2 ^ 32 ->
  refs (carr_item (carr_plus (fold_left run_cop (repeat Step k) (carr_new n)) dp) 0) = repeat (2 * Z.of_nat k + dp) n.
Proof.
  intros n k dp Hd L.
  assert (E : forall j q, 0 <= q -> q + Z.of_nat j < 2 ^ 32 -> fold_left run_cop (repeat Step j) (CArr (repeat 0 n) q) = CArr (repeat 0 n) (q + Z.of_nat j)).
  { induction j as [|j IH]; intros q Hq Lq; cbn [repeat fold_left run_cop]; [f_equal; lia|]. unfold carr_incr. cbn [cidx ptrs]. rewrite u32_id by lia. rewrite IH by lia. f_equal. lia. }
  unfold carr_new. rewrite E by lia. unfold carr_plus, carr_at, carr_item. cbn [refs ptrs cidx]. rewrite map_map. rewrite !u32_id by lia.
  clear E L. induction n as [|n IH]; cbn [repeat map]; [reflexivity|]. f_equal; [lia|exact IH].
Qed.
Print Assumptions C115_plus_after_steps.
Theorem C115_walk_refuted : ~ (forall n os i, 0 <= journey os -> 0 <= i -> journey os + i < 2 ^ 32 ->
  refs (carr_item (fold_left run_cop os (carr_new n)) i) = repeat (journey os + i) n).
Proof. intros H. specialize (H 3%nat [Step; Advance 1] 0 ltac:(cbn; lia) ltac:(lia) ltac:(cbn; lia)). cbn in H. discriminate. Qed.
Print Assumptions C115_walk_refuted.
(** A negative displacement is converted to UINT. *)
Theorem C115_backwards_refuted : ~ (forall n a b, 0 <= a + b -> 0 <= a < 2 ^ 31 -> - 2 ^ 31 <= b < 2 ^ 31 ->
  refs (carr_item (fold_left run_cop [Advance a; Advance b] (carr_new n)) 0) = repeat (a + b) n).
Proof. intros H. specialize (H 1%nat 4 (-1) ltac:(lia) ltac:(lia) ltac:(lia)). cbn in H. discriminate. Qed.
Print Assumptions C115_backwards_refuted.

(** Assigning an item of a line and reading it back; the other items keep their values. *)
Theorem C115_read_back : forall mem a i c, length c = length mem ->
  Forall2 (fun m r => 0 <= r < Z.of_nat (length m)) mem (refs (carr_item a i)) ->
  exists mem', item_assign mem (carr_item a i) c = Some mem' /\ carr_read mem' a i = Some c /\ map (@length Z) mem' = map (@length Z) mem /\
    forall j, u32 (cidx a + j) <> u32 (cidx a + i) -> carr_read mem' a j = carr_read mem a j.
Proof.
  intros mem a i c L F. destruct (assign_total mem _ c L F) as (mem' & E). exists mem'. split; [exact E|].
  assert (Lr : length (refs (carr_item a i)) = length mem). { clear -F. induction F; cbn; congruence. }
  destruct (assign_read mem _ c mem' L Lr E) as (A & B & D). split; [exact A|]. split; [exact B|]. intros j Hj. apply D. cbn [carr_item refs].
  clear -Hj. induction (ptrs a); cbn; constructor; [lia|assumption].
Qed.
Print Assumptions C115_read_back.

(** The conversion of an item of a line to a number ignores the line. *)
Theorem C115_item_refuted : ~ (forall mem a i c, carr_read mem a i = Some c -> item_int (carr_item a i) = mc_int c).
Proof. intros H. specialize (H [[7]; [7]; [7]] (carr_new 3) 0 [7; 7; 7] eq_refl). discriminate. Qed.
Print Assumptions C115_item_refuted.
(** That of a pixel lies between its channels; a pixel is false when all its channels are zero. *)
Theorem C115_mean : forall lo hi c, c <> [] -> (forall v, In v c -> lo <= v <= hi) ->
  lo <= mc_int c <= hi /\ (0 <= lo -> (mc_bool c = false <-> forall v, In v c -> v = 0)).
Proof. intros lo hi c N H. split; [apply mc_int_bounds; assumption|]. intros P. apply mc_bool_ok. intros v Hv. specialize (H v Hv). lia. Qed.
Print Assumptions C115_mean.
Theorem C115_mean_exact : forall c, c <> [] -> 0 <= fold_right Z.add 0 c ->
  mc_int c * Z.of_nat (length c) <= fold_right Z.add 0 c < (mc_int c + 1) * Z.of_nat (length c).
Proof.
  intros c N P. assert (L : 0 < Z.of_nat (length c)) by (destruct c; [congruence|cbn; lia]). unfold mc_int. rewrite Z.quot_div_nonneg by lia.
  pose proof (Z.div_mod (fold_right Z.add 0 c) (Z.of_nat (length c)) ltac:(lia)). pose proof (Z.mod_pos_bound (fold_right Z.add 0 c) (Z.of_nat (length c)) L). nia.
Qed.
Print Assumptions C115_mean_exact.

Example C115_case : careful false [Advance 3; Step; Step; Dup; Advance 2; Step] /\ journey [Advance 3; Step; Step; Dup; Advance 2; Step] = 8 /\
  refs (carr_item (fold_left run_cop [Advance 3; Step; Step; Dup; Advance 2; Step] (carr_new 3)) 1) = [9; 9; 9] /\
  carr_read [[1; 2]; [3; 4]; [5; 9]] (carr_new 3) 1 = Some [2; 4; 9] /\ mc_int [2; 4; 9] = 5 /\
  item_assign [[1; 2]; [3; 4]; [5; 9]] (carr_item (carr_new 3) 1) [7; 8; 6] = Some [[1; 7]; [3; 8]; [5; 6]].
Proof. repeat split; try reflexivity; lia. Qed.

(** C116: splitting puts channel [k] in slice [k], merging is the converse. *)
Theorem C116_split_partial : forall t junk n im out, wf_cimg n im -> wf_img out -> 0 < dd (csz im) -> plane_fits (csz im) ->
  exists out', splitChannels t junk im out = Some (1, out') /\ wf_img out' /\ sz out' = Dims (dw (csz im)) (dh (csz im)) (Z.of_nat n) /\
    forall k x y v, chan_is im k x y 0 v -> pixel_is out' x y k (wrap t v).
Proof. exact split_ok. Qed.
Print Assumptions C116_split_partial.
Theorem C116_merge_partial : forall t junk n im out, wf_img im -> wf_cimg n out -> dd (sz im) = Z.of_nat n -> plane_fits (sz im) ->
  exists out', mergeChannels t junk n im out = Some (1, out') /\ wf_cimg n out' /\ csz out' = Dims (dw (sz im)) (dh (sz im)) 1 /\
    forall k x y v, pixel_is im x y k v -> chan_is out' k x y 0 (wrap t v).
Proof. exact merge_ok. Qed.
Print Assumptions C116_merge_partial.
Theorem C116_merge_rejects : forall t junk n im out, dd (sz im) <> Z.of_nat n -> mergeChannels t junk n im out = Some (-100, out).
Proof. intros t junk n im out H. unfold mergeChannels. destruct (Z.eqb_spec (dd (sz im)) (Z.of_nat n)); [contradiction|reflexivity]. Qed.
Print Assumptions C116_merge_rejects.
(** The round trips, through any type that holds the values. *)
Theorem C116_split_merge_partial : forall t t' junk junk' n im out back, wf_cimg n im -> wf_img out -> wf_cimg n back -> dd (csz im) = 1 -> plane_fits (csz im) ->
  typed_cimg t im -> typed_cimg t' im ->
  exists out', splitChannels t' junk im out = Some (1, out') /\ mergeChannels t junk' n out' back = Some (1, im).
Proof. exact split_merge_ok. Qed.
Print Assumptions C116_split_merge_partial.
Theorem C116_merge_split_partial : forall t t' junk junk' n im out back, wf_img im -> wf_cimg n out -> wf_img back -> dd (sz im) = Z.of_nat n -> plane_fits (sz im) ->
  typed_img t im -> typed_img t' im ->
  exists out', mergeChannels t' junk n im out = Some (1, out') /\ splitChannels t junk' out' back = Some (1, im).
Proof. exact merge_split_ok. Qed.
Print Assumptions C116_merge_split_partial.

(** The slices of a volume other than the first are lost. *)
Theorem C116_volume_refuted : ~ (forall t junk n im out back, wf_cimg n im -> wf_img out -> wf_cimg n back -> plane_fits (csz im) -> typed_cimg t im ->
  exists out', splitChannels t junk im out = Some (1, out') /\ mergeChannels t junk n out' back = Some (1, im)).
Proof.
  intros H. set (im := CImg (Dims 1 1 2) [[1; 2]]). set (back := CImg (Dims 1 1 2) [[0; 0]]).
  assert (W : forall p q, wf_cimg 1 (CImg (Dims 1 1 2) [[p; q]])).
  { intros p q. split; [reflexivity|]. split; [repeat split; cbn; lia|]. intros c [<-|[]]. split; [repeat split; cbn; lia|reflexivity]. }
  destruct (H UINT8 (fun _ => 0) 1%nat im (Img (Dims 1 1 1) [0]) back (W 1 2)) as (o & E & E').
  - split; [repeat split; cbn; lia|reflexivity].
  - apply W.
  - repeat split; cbn; lia.
  - intros c [<-|[]]. repeat constructor; cbn; lia.
  - vm_compute in E. injection E as <-. vm_compute in E'. discriminate.
Qed.
Print Assumptions C116_volume_refuted.

(** The number of pixels of a plane is computed in a UINT: a plane of 65536 x 65536 pixels is not copied. *)
Theorem C116_large_refuted : ~ (forall t junk n im out, wf_cimg n im -> wf_img out -> 0 < dd (csz im) ->
  exists out', splitChannels t junk im out = Some (1, out') /\ forall k x y v, chan_is im k x y 0 v -> pixel_is out' x y k (wrap t v)).
Proof.
  intros H.
  assert (G : forall N : nat, Z.of_nat N = 65536 * 65536 * 1 -> False); [|apply (G (Z.to_nat (65536 * 65536 * 1))); apply Z2Nat.id; lia].
  intros N HN. set (s := Dims 65536 65536 1).
  assert (W : forall v, wf_img (Img s (repeat v N))). { intros v. split; [repeat split; cbn; lia|]. cbn [pixs sz]. rewrite repeat_length. exact HN. }
  destruct (H UINT8 (fun _ => 0) 1%nat (CImg s [repeat 5 N]) (Img s (repeat 0 N))) as (o & E & V).
  - split; [reflexivity|]. split; [apply (W 5)|]. intros c [<-|[]]. apply W.
  - apply W.
  - cbn. lia.
  - assert (E0 : splitChannels UINT8 (fun _ => 0) (CImg s [repeat 5 N]) (Img s (repeat 0 N)) = Some (1, Img s (repeat 0 N))) by reflexivity.
    rewrite E0 in E. injection E as <-. destruct (V 0 0 0 5) as (_ & Hv).
    + exists (Img s (repeat 5 N)). split; [reflexivity|]. split; [unfold inside; cbn; lia|]. apply (rd_repeat 5 N). unfold voxel_offset. cbn [sz s dw dh]. lia.
    + cbn [pixs sz s dw dh] in Hv. rewrite (rd_repeat 0 N) in Hv by (unfold voxel_offset; lia). discriminate.
Qed.
Print Assumptions C116_large_refuted.

(** Copies of one channel. *)
Theorem C116_copyChannel : forall t n im chan out, wf_cimg n im -> wf_img out -> 0 <= chan ->
  (chan < Z.of_nat n -> csz im = sz out -> exists out', copyChannel t im chan out = Some (1, out') /\ wf_img out' /\ sz out' = sz out /\
     forall x y z v, chan_is im chan x y z v -> pixel_is out' x y z (wrap t v)) /\
  (Z.of_nat n <= chan -> copyChannel t im chan out = Some (-100, out)) /\
  (chan < Z.of_nat n -> csz im <> sz out -> copyChannel t im chan out = Some (-98, out)).
Proof.
  intros t n im chan out W Wo Hc. pose proof W as (Ln & _). split; [intros; apply (copyChannel_ok t n); auto|]. unfold copyChannel. rewrite Ln. split.
  - intros H. replace (chan <? Z.of_nat n) with false by lia. reflexivity.
  - intros H N. replace (chan <? Z.of_nat n) with true by lia. cbn [negb]. destruct (same_dims (csz im) (sz out)) eqn:E; [apply same_dims_ok in E; contradiction|reflexivity].
Qed.
Print Assumptions C116_copyChannel.
Theorem C116_copyToChannel : forall t n im chan out, wf_img im -> wf_cimg n out -> 0 <= chan ->
  (chan < Z.of_nat n -> sz im = csz out -> exists out', copyToChannel t im chan out = Some (1, out') /\ wf_cimg n out' /\ csz out' = csz out /\
     (forall x y z v, pixel_is im x y z v -> chan_is out' chan x y z (wrap t v)) /\
     (forall k, k <> chan -> channel out' k = channel out k)) /\
  (Z.of_nat n <= chan -> copyToChannel t im chan out = Some (-100, out)) /\
  (chan < Z.of_nat n -> sz im <> csz out -> copyToChannel t im chan out = Some (-98, out)).
Proof.
  intros t n im chan out W Wo Hc. pose proof Wo as (Ln & _). split; [intros; apply (copyToChannel_ok t n); auto|]. unfold copyToChannel. rewrite Ln. split.
  - intros H. replace (chan <? Z.of_nat n) with false by lia. reflexivity.
  - intros H N. replace (chan <? Z.of_nat n) with true by lia. cbn [negb]. destruct (same_dims (sz im) (csz out)) eqn:E; [apply same_dims_ok in E; contradiction|reflexivity].
Qed.
Print Assumptions C116_copyToChannel.

Definition postcard : cimg := CImg (Dims 2 2 1) [[1; 2; 3; 4]; [10; 20; 30; 40]; [5; 6; 7; 255]].
Example C116_case : wf_cimg 3 postcard /\ plane_fits (csz postcard) /\ typed_cimg UINT8 postcard /\
  splitChannels UINT16 (fun _ => 9) postcard (Img (Dims 1 1 1) [0]) = Some (1, Img (Dims 2 2 3) [1; 2; 3; 4; 10; 20; 30; 40; 5; 6; 7; 255]) /\
  mergeChannels UINT8 (fun _ => 9) 3 (Img (Dims 2 2 3) [1; 2; 3; 4; 10; 20; 30; 40; 5; 6; 7; 255]) (CImg (Dims 1 1 1) [[0]; [0]; [0]]) = Some (1, postcard) /\
  copyToChannel UINT8 (Img (Dims 2 2 1) [8; 300; 8; 8]) 1 postcard = Some (1, CImg (Dims 2 2 1) [[1; 2; 3; 4]; [8; 44; 8; 8]; [5; 6; 7; 255]]).
Proof.
  split; [|split; [repeat split; cbn; lia|split; [|repeat split]]].
  - split; [reflexivity|]. split; [repeat split; cbn; lia|]. intros c Hc. cbn in Hc. destruct Hc as [<-|[<-|[<-|[]]]]; (split; [repeat split; cbn; lia|reflexivity]).
  - intros c Hc. cbn in Hc. destruct Hc as [<-|[<-|[<-|[]]]]; repeat constructor; cbn; lia.
Qed.

(** C117: the RGB lines take the supremum and the infimum of the colours; the items after [size] are kept. *)
Theorem C117_sup : forall in1 in2 size out, rgb_has size in1 -> rgb_has size in2 -> rgb_has size out ->
  exists out', rgb_sup in1 in2 size out = Some out' /\ map (@length Z) out' = map (@length Z) out /\
    (forall i, 0 <= i < size -> supremum (colour_at in1 i) (colour_at in2 i) (colour_at out' i)) /\
    (forall i, size <= i -> colour_at out' i = colour_at out i).
Proof.
  intros in1 in2 size out H1 H2 H. destruct (rgb_line_ok (fun a b => if a >? b then a else b) in1 in2 size out H1 H2 H) as (o & E & L & V & O). exists o. split; [exact E|]. split; [exact L|]. split; [|exact O].
  intros i Hi. rewrite (V i Hi). apply map2_max_sup. rewrite !colour_length. destruct H1, H2. congruence.
Qed.
Print Assumptions C117_sup.
Theorem C117_inf : forall in1 in2 size out, rgb_has size in1 -> rgb_has size in2 -> rgb_has size out ->
  exists out', rgb_inf in1 in2 size out = Some out' /\ map (@length Z) out' = map (@length Z) out /\
    (forall i, 0 <= i < size -> infimum (colour_at in1 i) (colour_at in2 i) (colour_at out' i)) /\
    (forall i, size <= i -> colour_at out' i = colour_at out i).
Proof.
  intros in1 in2 size out H1 H2 H. destruct (rgb_line_ok (fun a b => if a <? b then a else b) in1 in2 size out H1 H2 H) as (o & E & L & V & O). exists o. split; [exact E|]. split; [exact L|]. split; [|exact O].
  intros i Hi. rewrite (V i Hi). apply map2_min_inf. rewrite !colour_length. destruct H1, H2. congruence.
Qed.
Print Assumptions C117_inf.

(** Comparing lines: white where the colours are equal, but not black where they differ. *)
Theorem C117_equ_partial : forall in1 in2 size out, rgb_has size in1 -> rgb_has size in2 -> rgb_has size out ->
  exists out', rgb_equ in1 in2 size out = Some out' /\ map (@length Z) out' = map (@length Z) out /\
    (forall i, 0 <= i < size -> (colour_at out' i = [255; 255; 255] <-> colour_at in1 i = colour_at in2 i) /\
       (forall u, In u (colour_at out' i) -> u = 0 \/ u = 255)) /\
    (forall i, size <= i -> colour_at out' i = colour_at out i).
Proof.
  intros in1 in2 size out H1 H2 H. destruct (rgb_line_ok (fun a b => if a =? b then 255 else 0) in1 in2 size out H1 H2 H) as (o & E & L & V & O). exists o. split; [exact E|]. split; [exact L|]. split; [|exact O].
  intros i Hi. rewrite (V i Hi). destruct H1 as (L1 & _), H2 as (L2 & _). rewrite <- (colour_length in1 i) in L1. rewrite <- (colour_length in2 i) in L2.
  destruct (colour_at in1 i) as [|a0 [|a1 [|a2 [|]]]]; try discriminate. destruct (colour_at in2 i) as [|b0 [|b1 [|b2 [|]]]]; try discriminate. cbn [map2].
  destruct (Z.eqb_spec a0 b0), (Z.eqb_spec a1 b1), (Z.eqb_spec a2 b2); (split; [split; [intros [=]|intros [=]]; congruence|intros u [<-|[<-|[<-|[]]]]; auto]).
Qed.
Print Assumptions C117_equ_partial.
(** [diff], generic, is white wherever [equ] is not white. *)
Theorem C117_complement_refuted : ~ (forall in1 in2 size out out', rgb_has size in1 -> rgb_has size in2 -> rgb_has size out ->
  rgb_equ in1 in2 size out = Some out' -> forall i, 0 <= i < size ->
  colour_at out' i = map (fun v => 255 - v) (mc_diff [255; 255; 255] [0; 0; 0] (colour_at in1 i) (colour_at in2 i))).
Proof.
  assert (W : forall a b c, rgb_has 1 [[a]; [b]; [c]]). { intros a b c. split; [reflexivity|]. intros d Hd. cbn in Hd. destruct Hd as [<-|[<-|[<-|[]]]]; cbn; lia. }
  intros H. specialize (H [[1]; [2]; [3]] [[1]; [2]; [4]] 1 [[0]; [0]; [0]] _ (W _ _ _) (W _ _ _) (W _ _ _) eq_refl 0 ltac:(lia)). discriminate.
Qed.
Print Assumptions C117_complement_refuted.

(** An RGB image is true when it is white; two images are equal when their comparison is true. *)
Theorem C117_true : forall im, wf_cimg 3 im -> typed_cimg UINT8 im -> rgb_bool im = true <-> forall k x y z v, chan_is im k x y z v -> v = 255.
Proof. exact rgb_bool_ok. Qed.
Print Assumptions C117_true.
Theorem C117_equal : forall im1 im2 px out, wf_cimg 3 im1 -> wf_cimg 3 im2 -> wf_cimg 3 (CImg (csz im1) px) -> csz im1 = csz im2 ->
  rgb_equ (chans im1) (chans im2) (pixelCount (csz im1)) px = Some out -> (rgb_bool (CImg (csz im1) out) = true <-> im1 = im2).
Proof. exact rgb_equal_ok. Qed.
Print Assumptions C117_equal.
(** The other comparison of whole images, [bool equ], is true as soon as each pixel has a channel in common. *)
Theorem C117_equ_whole_partial : forall n im1 im2, wf_cimg n im1 -> wf_cimg n im2 -> csz im1 = csz im2 -> pixelCount (csz im1) < 2 ^ 32 -> (0 < n)%nat ->
  exists b, color_equ im1 im2 = Some b /\ (im1 = im2 -> b = true) /\
    (b = true <-> forall x y z, inside (csz im1) x y z -> exists k v, chan_is im1 k x y z v /\ chan_is im2 k x y z v).
Proof. exact color_equ_ok. Qed.
Print Assumptions C117_equ_whole_partial.
Theorem C117_equ_whole_refuted : ~ (forall im1 im2, wf_cimg 3 im1 -> wf_cimg 3 im2 -> csz im1 = csz im2 -> color_equ im1 im2 = Some true -> im1 = im2).
Proof.
  assert (W : forall a b c, wf_cimg 3 (CImg (Dims 1 1 1) [[a]; [b]; [c]])).
  { intros a b c. split; [reflexivity|]. split; [repeat split; cbn; lia|]. intros d Hd. cbn in Hd. destruct Hd as [<-|[<-|[<-|[]]]]; (split; [repeat split; cbn; lia|reflexivity]). }
  intros H. specialize (H (CImg (Dims 1 1 1) [[1]; [2]; [3]]) (CImg (Dims 1 1 1) [[1]; [90]; [91]]) (W _ _ _) (W _ _ _) eq_refl eq_refl). discriminate.
Qed.
Print Assumptions C117_equ_whole_refuted.
Example C117_case : rgb_has 2 [[1; 7]; [2; 8]; [3; 9]] /\
  rgb_sup [[1; 7]; [2; 8]; [3; 9]] [[4; 0]; [0; 0]; [3; 10]] 2 [[0; 0; 5]; [0; 0; 5]; [0; 0; 5]] = Some [[4; 7; 5]; [2; 8; 5]; [3; 10; 5]] /\
  rgb_equ [[1; 7]; [2; 8]; [3; 9]] [[4; 0]; [0; 0]; [3; 10]] 2 [[0; 0]; [0; 0]; [0; 0]] = Some [[0; 0]; [0; 0]; [255; 0]] /\
  rgb_bool (CImg (Dims 1 1 1) [[255]; [255]; [255]]) = true /\ rgb_bool postcard = false.
Proof.
  split; [|repeat split]. split; [reflexivity|]. intros d Hd. cbn in Hd. destruct Hd as [<-|[<-|[<-|[]]]]; cbn; lia.
Qed.
