From Verif Require Export Model.Prelude.
From Coq Require Export Lia ZifyBool ZifyNat ZifyN.
Ltac Zify.zify_post_hook ::= Z.div_mod_to_equations.

Lemma zseq_In n i : In i (zseq n) <-> 0 <= i < n.
Proof.
  unfold zseq. rewrite in_map_iff. split.
  - intros (k & <- & H). apply in_seq in H. lia.
  - intros H. exists (Z.to_nat i). split; [lia|]. apply in_seq. lia.
Qed.

Lemma zseq_length n : length (zseq n) = Z.to_nat n.
Proof. unfold zseq. rewrite map_length, seq_length. reflexivity. Qed.

Lemma zseq_NoDup n : NoDup (zseq n).
Proof.
  unfold zseq. apply FinFun.Injective_map_NoDup; [intros a b H; lia | apply seq_NoDup].
Qed.

Lemma zseq_nth n k : (k < Z.to_nat n)%nat -> nth_error (zseq n) k = Some (Z.of_nat k).
Proof.
  intros H. unfold zseq. rewrite nth_error_map.
  rewrite (nth_error_nth' _ 0%nat) by (rewrite seq_length; lia).
  rewrite seq_nth by lia. reflexivity.
Qed.

Lemma rd_zseq n i : 0 <= i < n -> rd (zseq n) i = Some i.
Proof.
  intros H. unfold rd. destruct (Z.leb_spec 0 i); [|lia].
  rewrite zseq_nth by lia. f_equal. lia.
Qed.

Lemma rd_Some_range {A} (l : list A) i v : rd l i = Some v -> 0 <= i < Z.of_nat (length l).
Proof.
  unfold rd. destruct (Z.leb_spec 0 i); [|discriminate].
  intros E. assert (nth_error l (Z.to_nat i) <> None) as N by congruence.
  apply nth_error_Some in N. lia.
Qed.

Lemma rd_in_range {A} (l : list A) i : 0 <= i < Z.of_nat (length l) -> exists v, rd l i = Some v.
Proof.
  intros H. unfold rd. destruct (Z.leb_spec 0 i); [|lia].
  destruct (nth_error l (Z.to_nat i)) eqn:E; [eauto|].
  apply nth_error_None in E. lia.
Qed.

Lemma rd_out {A} (l : list A) i : ~ (0 <= i < Z.of_nat (length l)) -> rd l i = None.
Proof.
  intros H. unfold rd. destruct (Z.leb_spec 0 i); [|reflexivity].
  apply nth_error_None. lia.
Qed.

Lemma rd_In {A} (l : list A) i v : rd l i = Some v -> In v l.
Proof.
  unfold rd. destruct (Z.leb_spec 0 i); [|discriminate]. apply nth_error_In.
Qed.

Lemma In_rd {A} (l : list A) v : In v l -> exists i, 0 <= i < Z.of_nat (length l) /\ rd l i = Some v.
Proof.
  intros H. apply In_nth_error in H as [n Hn]. exists (Z.of_nat n).
  assert (nth_error l n <> None) as N by congruence. apply nth_error_Some in N.
  split; [lia|]. unfold rd. destruct (Z.leb_spec 0 (Z.of_nat n)); [|lia].
  rewrite Nat2Z.id. exact Hn.
Qed.

Lemma rd_map {A B} (f : A -> B) l i : rd (map f l) i = option_map f (rd l i).
Proof. unfold rd. destruct (0 <=? i); [apply nth_error_map|reflexivity]. Qed.

Lemma rd_app {A} (l1 l2 : list A) i :
  rd (l1 ++ l2) i = if i <? Z.of_nat (length l1) then rd l1 i else rd l2 (i - Z.of_nat (length l1)).
Proof.
  unfold rd. destruct (Z.leb_spec 0 i); destruct (Z.ltb_spec i (Z.of_nat (length l1)));
    destruct (Z.leb_spec 0 (i - Z.of_nat (length l1))); try lia; try reflexivity.
  - rewrite nth_error_app1 by lia. reflexivity.
  - rewrite nth_error_app2 by lia. f_equal. lia.
Qed.

Lemma znth_rd {A} (d : A) l i v : rd l i = Some v -> znth d l i = v.
Proof. unfold znth. intros ->. reflexivity. Qed.

Lemma rd_znth {A} (d : A) l i : 0 <= i < Z.of_nat (length l) -> rd l i = Some (znth d l i).
Proof. intros H. destruct (rd_in_range l i H) as [v E]. rewrite E, (znth_rd d _ _ _ E). reflexivity. Qed.

Lemma upd_nat_length {A} (l : list A) n v : length (upd_nat l n v) = length l.
Proof. revert n; induction l as [|x l IH]; intros [|n]; cbn; auto. Qed.

Lemma upd_nat_nth {A} (l : list A) n m v :
  nth_error (upd_nat l n v) m =
  if (Nat.eqb n m && Nat.ltb n (length l))%bool then Some v else nth_error l m.
Proof.
  revert n m; induction l as [|x l IH]; intros [|n] [|m]; cbn; auto.
  - rewrite andb_false_r. reflexivity.
  - rewrite IH. reflexivity.
Qed.

Lemma wr_length {A} (l : list A) i v l' : wr l i v = Some l' -> length l' = length l.
Proof. unfold wr. destruct (_ && _); [|discriminate]. intros [= <-]. apply upd_nat_length. Qed.

Lemma wr_Some {A} (l : list A) i v :
  0 <= i < Z.of_nat (length l) -> exists l', wr l i v = Some l'.
Proof. intros H. unfold wr. replace (_ && _) with true by lia. eauto. Qed.

Lemma wr_None {A} (l : list A) i v : ~ (0 <= i < Z.of_nat (length l)) -> wr l i v = None.
Proof. intros H. unfold wr. replace (_ && _) with false by lia. reflexivity. Qed.

Lemma wr_Some_range {A} (l : list A) i v l' : wr l i v = Some l' -> 0 <= i < Z.of_nat (length l).
Proof. unfold wr. destruct (_ && _) eqn:E; [|discriminate]. lia. Qed.

Lemma rd_wr {A} (l : list A) i v l' j :
  wr l i v = Some l' -> rd l' j = if i =? j then Some v else rd l j.
Proof.
  unfold wr. destruct (_ && _) eqn:E; [|discriminate]. intros [= <-].
  unfold rd. destruct (Z.eqb_spec i j) as [->|N].
  - destruct (Z.leb_spec 0 j); [|lia]. rewrite upd_nat_nth.
    rewrite Nat.eqb_refl. replace (Nat.ltb _ _) with true by lia. reflexivity.
  - destruct (Z.leb_spec 0 j); [|reflexivity]. rewrite upd_nat_nth.
    replace (Nat.eqb _ _) with false by lia. reflexivity.
Qed.

Lemma upd_length {A} (l : list A) i v : length (upd l i v) = length l.
Proof. unfold upd. destruct (wr l i v) eqn:E; [eapply wr_length; eauto|reflexivity]. Qed.

Lemma rd_upd {A} (l : list A) i v j :
  rd (upd l i v) j = if (i =? j) && (0 <=? i) && (i <? Z.of_nat (length l)) then Some v else rd l j.
Proof.
  unfold upd. destruct (wr l i v) as [l'|] eqn:E.
  - rewrite (rd_wr _ _ _ _ j E). pose proof (wr_Some_range _ _ _ _ E).
    destruct (Z.eqb_spec i j); cbn; [|reflexivity].
    replace (0 <=? i) with true by lia. replace (i <? _) with true by lia. reflexivity.
  - destruct (i =? j) eqn:E1; cbn; [|reflexivity].
    destruct (0 <=? i) eqn:E2; cbn; [|reflexivity].
    destruct (i <? _) eqn:E3; cbn; [|reflexivity].
    unfold wr in E. rewrite E2, E3 in E. discriminate.
Qed.

Lemma znth_upd {A} (d : A) l i v j :
  znth d (upd l i v) j = if (i =? j) && (0 <=? i) && (i <? Z.of_nat (length l)) then v else znth d l j.
Proof. unfold znth. rewrite rd_upd. destruct (_ && _); reflexivity. Qed.

Lemma map2_length {A B C} (f : A -> B -> C) l1 l2 :
  length (map2 f l1 l2) = Nat.min (length l1) (length l2).
Proof. revert l2; induction l1 as [|x l1 IH]; intros [|y l2]; cbn; auto. Qed.

Lemma map2_nth {A B C} (f : A -> B -> C) l1 l2 n :
  nth_error (map2 f l1 l2) n =
  match nth_error l1 n, nth_error l2 n with Some a, Some b => Some (f a b) | _, _ => None end.
Proof.
  revert l2 n; induction l1 as [|x l1 IH]; intros [|y l2] [|n]; cbn; auto.
  destruct (nth_error l1 n); reflexivity.
Qed.

Lemma rd_map2 {A B C} (f : A -> B -> C) l1 l2 i :
  rd (map2 f l1 l2) i =
  match rd l1 i, rd l2 i with Some a, Some b => Some (f a b) | _, _ => None end.
Proof. unfold rd. destruct (0 <=? i); [apply map2_nth|reflexivity]. Qed.

Lemma list_ext_rd {A} (l1 l2 : list A) :
  length l1 = length l2 -> (forall i, 0 <= i < Z.of_nat (length l1) -> rd l1 i = rd l2 i) -> l1 = l2.
Proof.
  revert l2; induction l1 as [|x l1 IH]; intros [|y l2] HL H; cbn in HL; try discriminate; auto.
  f_equal.
  - specialize (H 0). unfold rd in H. cbn in H.
    assert (Some x = Some y) as E by (apply H; lia). congruence.
  - apply IH; [congruence|]. intros i Hi. specialize (H (i + 1)).
    unfold rd in *. destruct (Z.leb_spec 0 i); [|lia]. destruct (Z.leb_spec 0 (i+1)); [|lia].
    replace (Z.to_nat (i + 1)) with (S (Z.to_nat i)) in H by lia. cbn in H. apply H. cbn; lia.
Qed.

Lemma fold_opt_app {A B} (f : B -> A -> option B) l1 l2 b :
  fold_opt f (l1 ++ l2) b = option_bind (fold_opt f l1 b) (fold_opt f l2).
Proof.
  revert b; induction l1 as [|a l1 IH]; intros b; cbn; [reflexivity|].
  destruct (f b a); cbn; auto.
Qed.

Lemma rd_repeat {A} (v : A) n i : 0 <= i < Z.of_nat n -> rd (repeat v n) i = Some v.
Proof.
  intros H. unfold rd. destruct (Z.leb_spec 0 i); [|lia].
  apply nth_error_repeat. lia.
Qed.

Lemma nth_error_firstn {A} (l : list A) n k :
  nth_error (firstn n l) k = if Nat.ltb k n then nth_error l k else None.
Proof.
  revert l k; induction n as [|n IH]; intros [|x l] [|k]; cbn; auto.
  - match goal with |- context [if ?b then _ else _] => destruct b end; reflexivity.
  - rewrite IH. reflexivity.
Qed.

Lemma rd_firstn {A} (l : list A) n i :
  rd (firstn n l) i = if i <? Z.of_nat n then rd l i else None.
Proof.
  unfold rd. destruct (Z.leb_spec 0 i); [|destruct (_ <? _); reflexivity].
  rewrite nth_error_firstn.
  replace (Nat.ltb (Z.to_nat i) n) with (i <? Z.of_nat n) by lia. reflexivity.
Qed.

Lemma nth_error_skipn {A} (l : list A) n k :
  nth_error (skipn n l) k = nth_error l (n + k)%nat.
Proof.
  revert l; induction n as [|n IH]; intros [|x l]; cbn; auto. destruct k; reflexivity.
Qed.

Lemma rd_skipn {A} (l : list A) n i :
  0 <= i -> rd (skipn n l) i = rd l (Z.of_nat n + i).
Proof.
  intros H. unfold rd. destruct (Z.leb_spec 0 i); [|lia]. destruct (Z.leb_spec 0 (Z.of_nat n + i)); [|lia].
  rewrite nth_error_skipn. f_equal. lia.
Qed.

Lemma all_some_map {A B} (f : A -> option B) (g : A -> B) l :
  (forall a, In a l -> f a = Some (g a)) -> all_some (map f l) = Some (map g l).
Proof.
  induction l as [|a l IH]; intros H; cbn; [reflexivity|].
  rewrite (H a (or_introl eq_refl)), IH by (intros; apply H; right; assumption). reflexivity.
Qed.
